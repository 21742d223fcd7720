(** Per-instruction correctness of the x86-64 general-purpose lifter. *)

From Coq Require Import ZArith Lia ZifyBool List Bool.
From Verif Require Import Bits IR Facet Dsl Rv64 Rv64Spec Rv64Sim Rv64Arith Rv64Int X86 X86Spec X86Arith X86Sim X86Ops.
Import ListNotations.
Open Scope Z_scope.
Ltac Zify.zify_post_hook ::= Z.div_mod_to_equations.

Ltac gle_flags := repeat split; auto; let f := fresh in let b := fresh in intros f b; destruct f; cbn; auto.
Section Gp.
Context `{FpuOps}.
Variable c : cenv.
Variable cfg : xcfg.
Hypothesis HA : c_arch c = X86_64.
Hypothesis GB : gbase_ok c.
Notation G := (G c).
Notation vals := (vals c).
Notation done := (done c).

Lemma pcv_const : forall a z, z = addr_pc_base c a -> pc_value c (PcConst a) 0 = Ok (V (TInt 64) z).
Proof. intros a z ->. cbn [pc_value]. rewrite Z.add_0_r. reflexivity. Qed.

Variables (kc kcp : areg -> konst) (i : xinst) (g : xst) (rt : bool).
Hypothesis IP : y_ip g = addr_pc_base c (x_end i).
Hypothesis W0 : wf_op (x_op0 i) = true.
Hypothesis W1 : wf_op (x_op1 i) = true.
Hypothesis W2 : wf_op (x_op2 i) = true.
Hypothesis O0 : good_op cfg (x_op0 i) = true.
Hypothesis O1 : good_op cfg (x_op1 i) = true.
Hypothesis O2 : good_op cfg (x_op2 i) = true.
Hypothesis KC : xkc_sound kc g.
Hypothesis SH : shape_ok i = true.
Hypothesis LK : x_lock i = true -> op_ismem (x_op0 i) = true.
Hypothesis LB : x_lock i = true -> lockable (x_mn i) = true.
Notation p := (PcConst (x_end i)).
(** The lifted code does what the specification says, with the flags in [ls] unspecified. *)
Definition ok (ls : list xflag) (l : list stm) : Prop :=
  forall g' vs, isa i g = Some g' -> G g p vs rt l (done (forget ls g') rt).

Ltac shp MN := unfold shape_ok in SH; rewrite MN in SH; cbv zeta beta iota in SH;
  repeat match goal with H : _ && _ = true |- _ => apply andb_prop in H; destruct H end.
Ltac side := match goal with
  | |- _ = addr_pc_base _ _ => first [exact IP | rewrite ?wr_op_ip, ?wr_loc_ip; exact IP]
  | |- xkc_sound _ _ => exact KC
  | |- op_val _ = true => first [assumption | apply op_rm_val; assumption | apply op_rm_val, op_isreg_rm; assumption]
  | |- op_rm _ = true => first [assumption | apply op_isreg_rm; assumption | apply op_ismem_rm; auto]
  | |- _ => first [assumption | reflexivity | lia]
  end.
Ltac ld := eapply G_OpLoad; [exact GB|side|side|side|side|side|].
Ltac nilr := match goal with |- X86Sim.G _ _ _ _ _ ?l _ => rewrite <- (app_nil_r l) end.
Ltac stv x := unfold OpStoreGp; eapply G_OpStore with (v := x); [assumption|exact GB|side|side|side|side|side|side| |].
Ltac fin := apply G_done; [|apply pcv_const; cbn [y_ip forget set_f set1]; rewrite ?wr_op_ip; exact IP].
Ltac var := apply v_var; reflexivity.
Ltac svar := apply sv_var; [reflexivity|discriminate].
Ltac isa MN := intros g' vs E; unfold isa in E; rewrite MN in E; cbv zeta beta iota in E.

Lemma gle_forget : forall ls a b, gle a b -> gle a (forget ls b).
Proof.
  intros ls a b (A1 & A2 & A3 & A4 & A5). repeat split; auto. intros f x. unfold forget. cbn [set_f y_f].
  destruct (existsb (xflag_eqb f) ls); [discriminate|apply A2].
Qed.
Lemma rdi : forall o, wf_op o = true -> op_val o = true -> inr (op_bits o) (rd_op g o).
Proof. intros. apply rd_op_inr; assumption. Qed.
Lemma bitsok : forall o, wf_op o = true -> op_val o = true -> 8 <= op_bits o <= 64.
Proof. intros. apply okw_pos, op_bits_ok; assumption. Qed.

Lemma L_MOV : x_mn i = X_MOV \/ x_mn i = X_MOVSX -> ok [] (LiftMovgp c cfg kc i).
Proof.
  intros MN. assert (S : op_rm (x_op0 i) = true /\ op_val (x_op1 i) = true /\ op_bits (x_op1 i) <= op_bits (x_op0 i)).
  { destruct MN as [MN|MN]; shp MN; split; try side; split; try side; lia. }
  destruct S as (S1 & S2 & S3). intros g' vs E. assert (E' : g' = wr_op g (x_op0 i) (S_ (op_bits (x_op1 i)) (rd_op g (x_op1 i)))).
  { unfold isa in E. destruct MN as [MN|MN]; rewrite MN in E; injection E as <-; reflexivity. } subst g'.
  pose proof (bitsok _ W1 S2). pose proof (rdi _ W1 S2).
  unfold LiftMovgp. ld. nilr.
  stv (S_ (op_bits (x_op1 i)) (rd_op g (x_op1 i))).
  { rewrite S_small by assumption. eapply v_sext; [var|lia|assumption]. }
  fin. apply gle_forget, gle_refl.
Qed.

Lemma L_MOVZX : x_mn i = X_MOVZX -> ok [] (LiftMovzx c cfg kc i).
Proof.
  intros MN. shp MN. isa MN. injection E as <-.
  assert (V1 : op_val (x_op1 i) = true) by side. pose proof (rdi _ W1 V1). pose proof (bitsok _ W1 V1).
  unfold LiftMovzx. ld. destruct (32 <=? op_bits (x_op0 i)) eqn:B32.
  - destruct (x_op0 i) as [|w hi r| | |] eqn:EO; try discriminate. cbn [op_bits wf_op] in *. destruct hi; [exfalso; bsp|].
    apply andb_prop in W0; destruct W0 as [Ow Or]. apply okr_range in Or. cbn [MapReg]. eapply G_set; [assumption|var|exact Or|]. fin.
    apply gle_forget. unfold wr_op, loc_of, wr_loc, wr_reg, reg_merge. change U with trunc. 
    assert (IB : inr 32 (rd_op g (x_op1 i))) by (eapply inr_le; [|eassumption]; lia).
    rewrite (trunc_small 32) by assumption. okw_split Ow; try (exfalso; lia); cbn [Z.eqb Pos.eqb]; rewrite trunc_small by (eapply inr_le; [|exact IB]; lia); apply gle_refl.
  - nilr. stv (rd_op g (x_op1 i)).
    { rewrite trunc_small by (eapply inr_le; [|eassumption]; lia). eapply v_zext; [var|lia]. }
    fin. apply gle_forget, gle_refl.
Qed.

(** The common part of ADD, SUB, CMP, ADC, SBB once the second operand is bound. *)
Definition arith_tail (sub wb alt : bool) : list stm :=
  let w := op_bits (x_op1 i) in
  (if x_lock i then [SRmw 1 (if sub then RSub else RAdd) (OpAddrOf c cfg kc (x_op0 i)) (vX 2)]
   else OpLoad c cfg kc 1 (x_op0 i) FI) ++
  [SLet 3 (eBin (if sub then Sub else Add) (vX 1) (vX 2))] ++
  (if wb then if x_lock i then [] else OpStoreGp c cfg kc (x_op0 i) w (vX 3) else []) ++
  (if sub then FlagCalcSub w (vX 3) (vX 1) (vX 2) false alt
   else FlagCalcAdd cfg w (vX 3) (vX 1) (vX 2) false).
Lemma arith_tail_ok : forall (sub wb alt : bool) vs b g', op_rm (x_op0 i) = true -> op_bits (x_op1 i) = op_bits (x_op0 i) ->
  vs 2%nat = Some (V (TInt (op_bits (x_op0 i))) b) -> inr (op_bits (x_op0 i)) b -> (x_lock i = true -> wb = true) ->
  let a := rd_op g (x_op0 i) in let w := op_bits (x_op0 i) in
  let r := if sub then a - b else a + b in
  g' = (if sub then sub_flags w a b 0 false else add_flags w a b 0 false) (if wb then wr_op g (x_op0 i) r else g) ->
  G g p vs rt (arith_tail sub wb alt) (done g' rt).
Proof.
  intros sub wb alt vs b g' RM BB V2 IB WB a w r Eg. subst g'. unfold arith_tail. rewrite BB. fold w.
  assert (V0 : op_val (x_op0 i) = true) by side. pose proof (rdi _ W0 V0) as IA. fold a w in IA. pose proof (bitsok _ W0 V0) as BW. fold w in BW, V2, IB.
  assert (ER : ibin (if sub then Sub else Add) w a b = IV (trunc w r)) by (destruct sub; reflexivity).
  assert (TAIL : forall g1 vs1, vs1 1%nat = Some (V (TInt w) a) -> vs1 2%nat = Some (V (TInt w) b) -> vs1 3%nat = Some (V (TInt w) (trunc w r)) ->
     y_ip g1 = y_ip g ->
     G g1 p vs1 rt (if sub then FlagCalcSub w (vX 3) (vX 1) (vX 2) false alt else FlagCalcAdd cfg w (vX 3) (vX 1) (vX 2) false)
       (done ((if sub then sub_flags w a b 0 false else add_flags w a b 0 false) g1) rt)).
  { intros g1 vs1 X1 X2 X3 YI. nilr. destruct sub.
    - eapply G_sub; [assumption|apply sv_var; [exact X3|discriminate]|apply sv_var; [exact X1|discriminate]|apply sv_var; [exact X2|discriminate]|lia|assumption|assumption|].
      apply G_done; [apply gle_refl|apply pcv_const; cbn [sub_flags set_f y_ip]; rewrite YI; exact IP].
    - eapply G_add; [assumption|apply sv_var; [exact X3|discriminate]|apply sv_var; [exact X1|discriminate]|apply sv_var; [exact X2|discriminate]|lia|assumption|assumption|].
      apply G_done; [apply gle_refl|apply pcv_const; cbn [add_flags set_f y_ip]; rewrite YI; exact IP]. }
  destruct (x_lock i) eqn:L.
  - rewrite (WB eq_refl). cbn [app].
    eapply G_rmwop with (v := r); [exact GB|side|side|auto|reflexivity|side|side|apply v_var; exact V2|destruct sub; reflexivity|].
    eapply G_let; [eapply v_bin; [var|apply v_var; exact V2|exact ER]|].
    apply TAIL; try reflexivity; [exact V2|apply wr_op_ip].
  - ld. cbn [app]. eapply G_let; [eapply v_bin; [var|apply v_var; exact V2|exact ER]|].
    destruct wb; [|apply TAIL; try reflexivity; exact V2].
    stv r. { var. } apply TAIL; try reflexivity; [exact V2|apply wr_op_ip].
Qed.
Lemma ok_nil : forall l, (forall g' vs, isa i g = Some g' -> G g p vs rt l (done g' rt)) -> ok [] l.
Proof.
  intros l K g' vs E s A. destruct (K g' vs E s A) as (s' & R & D). exists s'. split; [exact R|].
  destruct D as (D1 & D2 & D3). split; [|split; assumption]. eapply xrel_gle; [exact D1|]. apply gle_forget, gle_refl.
Qed.
Lemma arith_ok : forall (sub wb alt : bool) vs g', op_rm (x_op0 i) = true -> op_val (x_op1 i) = true ->
  op_bits (x_op1 i) = op_bits (x_op0 i) -> (x_lock i = true -> wb = true) ->
  let a := rd_op g (x_op0 i) in let b := rd_op g (x_op1 i) in let w := op_bits (x_op0 i) in
  let r := if sub then a - b else a + b in
  g' = (if sub then sub_flags w a b 0 false else add_flags w a b 0 false) (if wb then wr_op g (x_op0 i) r else g) ->
  G g p vs rt (OpLoad c cfg kc 2 (x_op1 i) FI ++ arith_tail sub wb alt) (done g' rt).
Proof.
  intros sub wb alt vs g' R0 V1 BB WB a b w r Eg. ld. pose proof (rdi _ W1 V1) as I1.
  eapply arith_tail_ok; [side|assumption|rewrite <- BB; reflexivity|rewrite <- BB; exact I1|exact WB|exact Eg].
Qed.
Lemma L_ADD : x_mn i = X_ADD -> ok [] (LiftArith c cfg kc i false).
Proof.
  intros MN. apply ok_nil. shp MN. isa MN. injection E as <-. unfold LiftArith. rewrite MN. apply (arith_ok false true false); side || auto.
Qed.
Lemma L_SUB : x_mn i = X_SUB -> ok [] (LiftArith c cfg kc i true).
Proof.
  intros MN. apply ok_nil. shp MN. isa MN. injection E as <-. unfold LiftArith. rewrite MN. apply (arith_ok true true false); side || auto.
Qed.
Lemma L_CMP : x_mn i = X_CMP -> ok [] (LiftArith c cfg kc i true).
Proof.
  intros MN. apply ok_nil. assert (NL : x_lock i = true -> False) by (intro L; apply LB in L; rewrite MN in L; discriminate).
  shp MN. isa MN. injection E as <-. unfold LiftArith. rewrite MN.
  apply (arith_ok true false true); try side.
Qed.
(** ADC and SBB add the carry to the second operand before the addition; the
    state they produce is that of ADD/SUB with the operand (b + carry) mod 2^w. *)
Definition adc_model (sub : bool) (k : bool) : xst :=
  let a := rd_op g (x_op0 i) in let w := op_bits (x_op0 i) in
  let b := U w (rd_op g (x_op1 i) + bz k) in
  if sub then sub_flags w a b 0 false (wr_op g (x_op0 i) (a - b)) else add_flags w a b 0 false (wr_op g (x_op0 i) (a + b)).
Lemma L_ADCSBB : forall (sub : bool) k vs, x_mn i = (if sub then X_SBB else X_ADC) -> y_f g fCF = Some k ->
  G g p vs rt (LiftArith c cfg kc i sub) (done (adc_model sub k) rt).
Proof.
  intros sub k vs MN CFk.
  assert (S : op_rm (x_op0 i) = true /\ op_val (x_op1 i) = true /\ op_bits (x_op1 i) = op_bits (x_op0 i)).
  { destruct sub; shp MN; split; try side; split; try side; lia. }
  destruct S as (S0 & S1 & BB). pose proof (bitsok _ W1 S1).
  assert (EL : LiftArith c cfg kc i sub = OpLoad c cfg kc 2 (x_op1 i) FI ++
     [SLet 2 (eAdd (vX 2) (eZExt (op_bits (x_op1 i)) (GetFlag CF)))] ++ arith_tail sub true false).
  { unfold LiftArith. destruct sub; rewrite MN; reflexivity. }
  rewrite EL. ld. cbn [app]. eapply G_let.
  { eapply v_bin; [var|eapply v_zext; [apply (v_flag c g _ _ fCF k CFk)|lia]|reflexivity]. }
  eapply arith_tail_ok; [side|assumption|rewrite <- BB; reflexivity|rewrite <- BB; apply trunc_range; lia|auto|].
  unfold adc_model. rewrite BB. change bz with b2z. destruct sub; reflexivity.
Qed.

(** ZF, SF, PF from the result, AF undefined, CF and OF cleared. *)
Lemma logic_tail : forall g1 vs w r v, 8 <= w <= 64 -> vs 3%nat = Some (V (TInt w) v) -> v = trunc w r -> y_ip g1 = y_ip g ->
  G g1 p vs rt (FlagCalcZ w (vX 3) ++ FlagCalcSAPLogic w (vX 3) ++ [SSet CF (cI 1 0); SSet OF (cI 1 0)])
    (done (logic_flags w r g1) rt).
Proof.
  intros g1 vs w r v W V3 -> YI.
  eapply G_zf; [assumption|apply v_var; exact V3|lia|]. eapply G_sap; [assumption|apply sv_var; [exact V3|discriminate]|lia|].
  change CF with (cell fCF). change OF with (cell fOF).
  eapply (G_flag c HA _ _ _ _ fCF _ false); [apply v_cI|discriminate|]. eapply (G_flag c HA _ _ _ _ fOF _ false); [apply v_cI|discriminate|].
  apply G_done; [|apply pcv_const; cbn [logic_flags res_flags set_f y_ip]; rewrite YI; exact IP].
  gle_flags.
Qed.
Definition logic_op (op : binop) (aop : rmwop) (f : Z -> Z -> Z) : Prop :=
  (forall w a b, ibin op w a b = IV (f a b)) /\ (forall w a b, 0 <= w -> inr w a -> inr w b -> rmw_sem aop w a b = trunc w (f a b)) /\
  (forall w a b, 0 <= w -> inr w a -> inr w b -> inr w (f a b)).
Definition logic_tail2 (op : binop) (aop : rmwop) (wb : bool) : list stm :=
  let w := op_bits (x_op1 i) in
  OpLoad c cfg kc 2 (x_op1 i) FI ++
  (if x_lock i then [SRmw 1 aop (OpAddrOf c cfg kc (x_op0 i)) (vX 2)] else OpLoad c cfg kc 1 (x_op0 i) FI) ++
  [SLet 3 (eBin op (vX 1) (vX 2))] ++
  (if wb && negb (x_lock i) then OpStoreGp c cfg kc (x_op0 i) w (vX 3) else []) ++
  FlagCalcZ w (vX 3) ++ FlagCalcSAPLogic w (vX 3) ++ [SSet CF (cI 1 0); SSet OF (cI 1 0)].
Lemma logic_ok : forall op aop f wb vs, logic_op op aop f -> op_rm (x_op0 i) = true -> op_val (x_op1 i) = true ->
  op_bits (x_op1 i) = op_bits (x_op0 i) -> (x_lock i = true -> wb = true) ->
  let r := f (rd_op g (x_op0 i)) (rd_op g (x_op1 i)) in
  G g p vs rt (logic_tail2 op aop wb) (done (logic_flags (op_bits (x_op0 i)) r (if wb then wr_op g (x_op0 i) r else g)) rt).
Proof.
  intros op aop f wb vs (F1 & F2 & F3) R0 V1 BB WB r. pose proof (rdi _ W1 V1) as I1.
  assert (V0 : op_val (x_op0 i) = true) by side. pose proof (rdi _ W0 V0) as I0. pose proof (bitsok _ W0 V0) as BW.
  unfold logic_tail2. ld. rewrite BB in *. set (w := op_bits (x_op0 i)) in *.
  assert (IR_ : inr w r) by (apply F3; assumption || lia).
  destruct (x_lock i) eqn:L.
  - rewrite (WB eq_refl). cbn [app andb negb].
    eapply G_rmwop with (v := r); [exact GB|side|side|auto|reflexivity|side|side|var|apply F2; assumption || lia|].
    eapply G_let; [eapply v_bin; [var|var|apply F1]|].
    eapply logic_tail; [assumption|reflexivity|symmetry; apply trunc_small; exact IR_|apply wr_op_ip].
  - ld. cbn [app]. eapply G_let; [eapply v_bin; [var|var|apply F1]|]. fold r.
    destruct wb; cbn [andb negb app].
    + stv r. { rewrite trunc_small by exact IR_. var. }
      eapply logic_tail; [assumption|reflexivity|symmetry; apply trunc_small; exact IR_|apply wr_op_ip].
    + eapply logic_tail; [assumption|reflexivity|symmetry; apply trunc_small; exact IR_|reflexivity].
Qed.
Lemma logic_and : logic_op And RAnd Z.land.
Proof. split; [reflexivity|split]; intros; [cbn [rmw_sem]; symmetry; apply trunc_small|]; apply land_inr; assumption. Qed.
Lemma logic_or : logic_op Or ROr Z.lor.
Proof. split; [reflexivity|split]; intros; [cbn [rmw_sem]; symmetry; apply trunc_small|]; apply lor_inr; assumption. Qed.
Lemma logic_xor : logic_op Xor RXor Z.lxor.
Proof. split; [reflexivity|split]; intros; [cbn [rmw_sem]; symmetry; apply trunc_small|]; apply lxor_inr; assumption. Qed.
Lemma L_AND : x_mn i = X_AND -> ok [] (LiftAndOrXor c cfg kc i And RAnd true).
Proof.
  intros MN. apply ok_nil. shp MN. isa MN. injection E as <-. 
  replace (LiftAndOrXor c cfg kc i And RAnd true) with (logic_tail2 And RAnd true) by (unfold LiftAndOrXor; rewrite MN; reflexivity).
  apply (logic_ok And RAnd Z.land true vs logic_and); side || auto.
Qed.
Lemma L_OR : x_mn i = X_OR -> ok [] (LiftAndOrXor c cfg kc i Or ROr true).
Proof.
  intros MN. apply ok_nil. shp MN. isa MN. injection E as <-. 
  replace (LiftAndOrXor c cfg kc i Or ROr true) with (logic_tail2 Or ROr true) by (unfold LiftAndOrXor; rewrite MN; reflexivity).
  apply (logic_ok Or ROr Z.lor true vs logic_or); side || auto.
Qed.
Lemma L_TEST : x_mn i = X_TEST -> ok [] (LiftAndOrXor c cfg kc i And RAnd false).
Proof.
  intros MN. apply ok_nil. assert (NL : x_lock i = true -> False) by (intro L; apply LB in L; rewrite MN in L; discriminate).
  shp MN. isa MN. injection E as <-. 
  replace (LiftAndOrXor c cfg kc i And RAnd false) with (logic_tail2 And RAnd false) by (unfold LiftAndOrXor; rewrite MN; reflexivity).
  apply (logic_ok And RAnd Z.land false vs logic_and); side.
Qed.
Lemma L_XOR : x_mn i = X_XOR -> ok [] (LiftAndOrXor c cfg kc i Xor RXor true).
Proof.
  intros MN. apply ok_nil. pose proof SH as SH'. shp MN. rename SH' into SH0. isa MN. injection E as <-.
  assert (GEN : G g p vs rt (logic_tail2 Xor RXor true)
    (done (logic_flags (op_bits (x_op0 i)) (Z.lxor (rd_op g (x_op0 i)) (rd_op g (x_op1 i)))
      (wr_op g (x_op0 i) (Z.lxor (rd_op g (x_op0 i)) (rd_op g (x_op1 i))))) rt)).
  { apply (logic_ok Xor RXor Z.lxor true vs logic_xor); side || auto. }
  revert GEN. unfold LiftAndOrXor, logic_tail2. rewrite MN.
  destruct (x_op0 i) as [|w0 hi0 r0|w0 v0|d0|w0 m0] eqn:E0; try exact (fun x => x).
  destruct (x_op1 i) as [|w1 hi1 r1|w1 v1|d1|w1 m1] eqn:E1; try exact (fun x => x).
  intros GEN.
  assert (L : x_lock i = false). { destruct (x_lock i) eqn:L; [|reflexivity]. specialize (LK eq_refl). discriminate. }
  destruct ((r0 =? r1) && (32 <=? w0)) eqn:SR.
  - assert (r0 = r1 /\ 32 <= w0) as [-> W32] by bsp. cbn [op_bits wf_op] in *. assert (w1 = w0) by lia. subst w1.
    destruct hi0; [exfalso; bsp|]. destruct hi1; [exfalso; bsp|]. assert (OW : okw w0 = true) by bsp. pose proof (okw_pos w0 OW).
    rewrite Z.lxor_nilpotent. set (o := XReg w0 false r1) in *. replace w0 with (op_bits o) at 1 by reflexivity.
    stv 0. { apply v_cI. }
    eapply (G_sap c HA _ _ _ _ 64 _ 0); [apply sv_cI|lia|]. cbn [app].
    change CF with (cell fCF). change OF with (cell fOF). change ZF with (cell fZF).
    eapply (G_flag c HA _ _ _ _ fZF _ true); [apply v_cI|discriminate|].
    eapply (G_flag c HA _ _ _ _ fCF _ false); [apply v_cI|discriminate|]. eapply (G_flag c HA _ _ _ _ fOF _ false); [apply v_cI|discriminate|].
    apply G_done; [|apply pcv_const; cbn [logic_flags res_flags set_f y_ip]; rewrite wr_op_ip; exact IP].
    change (op_bits o) with w0. okw_split OW; gle_flags.
  - rewrite L in GEN. exact GEN.
Qed.
Lemma L_NOT : x_mn i = X_NOT -> ok [] (LiftNot c cfg kc i).
Proof.
  intros MN. apply ok_nil. shp MN. isa MN. injection E as <-. assert (V0 : op_val (x_op0 i) = true) by side.
  pose proof (rdi _ W0 V0) as I0. pose proof (bitsok _ W0 V0) as BW. set (w := op_bits (x_op0 i)) in *.
  assert (IN : inr w (2 ^ w - 1 - rd_op g (x_op0 i))) by (unfold inr in *; lia).
  assert (NX : Z.lxor (rd_op g (x_op0 i)) (trunc w (-1)) = 2 ^ w - 1 - rd_op g (x_op0 i)).
  { rewrite trunc_m1 by lia. replace (2^w - 1) with (Z.ones w) by (rewrite Z.ones_equiv; lia). change (bnot w (rd_op g (x_op0 i)) = Z.ones w - rd_op g (x_op0 i)). rewrite bnot_val by (assumption || lia). rewrite Z.ones_equiv. lia. }
  unfold LiftNot. fold w. destruct (x_lock i).
  - eapply G_rmwop with (v := 2 ^ w - 1 - rd_op g (x_op0 i)); [exact GB|side|side|auto|reflexivity|side|side|apply v_cI| |].
    { cbn [rmw_sem]. fold w. rewrite NX. symmetry. apply trunc_small. exact IN. }
    apply G_done; [apply gle_refl|apply pcv_const; rewrite wr_op_ip; exact IP].
  - ld. nilr. stv (2 ^ w - 1 - rd_op g (x_op0 i)).
    { rewrite trunc_small by exact IN. apply v_not; [var|lia|exact I0]. }
    apply G_done; [apply gle_refl|apply pcv_const; rewrite wr_op_ip; exact IP].
Qed.
Lemma wr_f_comm : forall g0 o v fl_, set_f (wr_op g0 o v) fl_ = wr_op (set_f g0 fl_) o v.
Proof. intros g0 o v fl_. destruct o as [|w hi r| | |]; try reflexivity. destruct hi; reflexivity. Qed.
Lemma L_NEG : x_mn i = X_NEG -> x_lock i = false -> ok [] (LiftNeg c cfg kc i).
Proof.
  intros MN L. apply ok_nil. shp MN. isa MN. injection E as <-. assert (V0 : op_val (x_op0 i) = true) by side.
  pose proof (rdi _ W0 V0) as I0. pose proof (bitsok _ W0 V0) as BW. unfold LiftNeg. rewrite L. 
  set (w := op_bits (x_op0 i)) in *. ld. cbn [app].
  assert (T0 : trunc w 0 = 0) by (apply trunc_small, inr0; lia).
  eapply G_let; [eapply v_bin; [apply v_cI|var|reflexivity]|]. rewrite T0. rewrite <- (app_nil_r (OpStoreGp _ _ _ _ _ _)).
  eapply (G_sub c HA _ _ _ _ w _ _ _ 0 (rd_op g (x_op0 i))); [svar|rewrite <- T0 at 3; apply sv_cI|svar|lia|apply inr0; lia|exact I0|].
  stv (- rd_op g (x_op0 i)). { apply v_var. reflexivity. }
  apply G_done; [|apply pcv_const; cbn [sub_flags set_f y_ip]; rewrite wr_op_ip; exact IP].
  unfold sub_flags. rewrite wr_f_comm.
  replace (y_f (wr_op g (x_op0 i) (- rd_op g (x_op0 i)))) with (y_f g) by (unfold wr_op; rewrite wr_loc_f; reflexivity). apply gle_refl.
Qed.
End Gp.
