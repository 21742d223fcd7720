(** Multiplication and division. *)

From Coq Require Import ZArith Lia ZifyBool List Bool.
From Verif Require Import Bits IR Facet Dsl Rv64 Rv64Spec Rv64Sim Rv64Arith Rv64Int X86 X86Spec X86Arith X86Sim X86Ops X86Gp X86Gp2 X86Gp3 X86Gp4.
Import ListNotations.
Open Scope Z_scope.
Ltac Zify.zify_post_hook ::= Z.div_mod_to_equations.

Ltac gle_flags := repeat split; auto; let f := fresh in let b := fresh in intros f b; destruct f; cbn; auto.
Lemma pow_dbl : forall w, 0 <= w -> 2 ^ (2 * w) = 2 ^ w * 2 ^ w.
Proof. intros. replace (2 * w) with (w + w) by lia. apply Z.pow_add_r; lia. Qed.
Lemma umul_ne : forall w x y, 0 < w -> inr w x -> inr w y -> negb (trunc (2 * w) (x * y) =? trunc w (x * y)) = (2 ^ w <=? x * y).
Proof.
  intros w x y W X Y. unfold inr in *. pose proof (pow_dbl w ltac:(lia)) as D. pose proof (pow2_pos w ltac:(lia)).
  assert (R : 0 <= x * y < 2 ^ (2 * w)) by (rewrite D; nia). rewrite (trunc_small (2 * w)) by exact R.
  destruct (2 ^ w <=? x * y) eqn:Q.
  - pose proof (trunc_range w (x * y) ltac:(lia)) as T. unfold inr in T. lia.
  - rewrite trunc_small by (unfold inr; lia). rewrite Z.eqb_refl. reflexivity.
Qed.
Lemma smul_range : forall w a b, 0 < w -> - 2 ^ (w - 1) <= a < 2 ^ (w - 1) -> - 2 ^ (w - 1) <= b < 2 ^ (w - 1) -> - 2 ^ (2 * w - 1) <= a * b < 2 ^ (2 * w - 1).
Proof.
  intros w a b W A B. replace (2 * w - 1) with (Z.succ ((w - 1) + (w - 1))) by lia. rewrite Z.pow_succ_r, Z.pow_add_r by lia.
  pose proof (pow2_pos (w - 1) ltac:(lia)). nia.
Qed.
Lemma smul_ne : forall w P, 0 < w -> - 2 ^ (2 * w - 1) <= P < 2 ^ (2 * w - 1) ->
  negb (trunc (2 * w) P =? trunc (2 * w) (S_ w P)) = s_out w P.
Proof.
  intros w P W R. unfold s_out. destruct ((- 2 ^ (w - 1) <=? P) && (P <? 2 ^ (w - 1))) eqn:Q.
  - rewrite S_id by lia. rewrite Z.eqb_refl. reflexivity.
  - destruct (trunc (2 * w) P =? trunc (2 * w) (S_ w P)) eqn:E; [|reflexivity]. exfalso. apply Z.eqb_eq in E.
    pose proof (S_range w P ltac:(lia)) as SR. assert (2 ^ (w - 1) <= 2 ^ (2 * w - 1)) by (apply Z.pow_le_mono_r; lia).
    assert (EQ : sgn (2 * w) (trunc (2 * w) P) = sgn (2 * w) (trunc (2 * w) (S_ w P))) by (rewrite E; reflexivity). rewrite !sgn_trunc_id in EQ by lia. lia.
Qed.
Lemma wide_hi : forall w P, 0 < w -> trunc w (trunc (2 * w) P / 2 ^ w) = trunc w (P / 2 ^ w).
Proof.
  intros w P W. rewrite <- !Z.shiftr_div_pow2 by lia. apply Z.bits_inj'. intros n N. rewrite !testbit_trunc, !Z.shiftr_spec, testbit_trunc by lia.
  destruct (Z.ltb_spec n w); [|reflexivity]. replace (n + w <? 2 * w) with true by lia. reflexivity.
Qed.
Lemma trunc_mul_S : forall w a b, 0 < w -> trunc w (a * b) = trunc w (S_ w a * S_ w b).
Proof. intros w a b W. rewrite <- trunc_mul_l, <- trunc_mul_r by lia. rewrite <- (trunc_S w a), <- (trunc_S w b) by lia. rewrite trunc_mul_l, trunc_mul_r by lia. reflexivity. Qed.
(** What the compile-time recognition of the high half of the dividend means. *)
Definition kd_sound (kd : kdivk) (w : Z) (g : xst) : Prop :=
  match kd with
  | DNone => True
  | DZero => U w (y_r g 2) = 0
  | DSext => U w (y_r g 2) = if sf_of w (y_r g 0) then 2 ^ w - 1 else 0
  end.
Lemma cat_inr : forall w h l, 0 < w -> inr w h -> inr w l -> inr (2 * w) (h * 2 ^ w + l).
Proof. intros w h l W Hh L. unfold inr in *. rewrite pow_dbl by lia. nia. Qed.
Lemma S_cat : forall w x, 0 < w -> S_ (2 * w) ((if sf_of w x then 2 ^ w - 1 else 0) * 2 ^ w + U w x) = S_ w x.
Proof.
  intros w x W. unfold S_ at 2. unfold sf_of. change U with trunc. pose proof (trunc_range w x ltac:(lia)) as T. unfold inr in T.
  pose proof (pow2_succ w ltac:(lia)) as P2. pose proof (pow_dbl w ltac:(lia)) as D. pose proof (pow2_pos (w - 1) ltac:(lia)).
  fold (trunc w x). set (u := trunc w x) in *. clearbody u.
  assert (E : S_ (2 * w) ((if 2 ^ (w - 1) <=? u then 2 ^ w - 1 else 0) * 2 ^ w + u) = if u <? 2 ^ (w - 1) then u else u - 2 ^ w).
  { assert (PL : 2 ^ (w - 1) <= 2 ^ (2 * w - 1)) by (apply Z.pow_le_mono_r; lia).
    assert (R : - 2 ^ (2 * w - 1) <= (if u <? 2 ^ (w - 1) then u else u - 2 ^ w) < 2 ^ (2 * w - 1)).
    { destruct (u <? 2 ^ (w - 1)) eqn:Q; lia. }
    rewrite <- (S_id (2 * w) (if u <? 2 ^ (w - 1) then u else u - 2 ^ w)) by (lia || exact R). apply S_congr.
    destruct (2 ^ (w - 1) <=? u) eqn:Q; [replace (u <? 2 ^ (w - 1)) with false by lia|replace (u <? 2 ^ (w - 1)) with true by lia; f_equal; lia].
    unfold trunc. rewrite D. replace ((2 ^ w - 1) * 2 ^ w + u) with (u - 2 ^ w + 1 * (2 ^ w * 2 ^ w)) by lia. apply Z.mod_add. nia. }
  rewrite E. reflexivity.
Qed.
Lemma sdivrem : forall wd w n a, 1 < w -> w <= wd -> inr wd n -> inr w a -> S_ w a <> 0 -> s_out w (Z.quot (S_ wd n) (S_ w a)) = false ->
  ibin SDiv wd n (sext w wd a) = IV (trunc wd (Z.quot (S_ wd n) (S_ w a))) /\ ibin SRem wd n (sext w wd a) = IV (trunc wd (Z.rem (S_ wd n) (S_ w a))).
Proof.
  intros wd w n a W WD N A D O. pose proof (S_range w a ltac:(lia)) as SR. pose proof (S_range wd n ltac:(lia)) as SN. assert (PL : 2 ^ (w - 1) <= 2 ^ (wd - 1)) by (apply Z.pow_le_mono_r; lia).
  assert (SX : sgn wd (sext w wd a) = S_ w a). { unfold sext. rewrite <- (S_small w a) by exact A. apply sgn_trunc_id; lia. }
  assert (NZ : (sext w wd a =? 0) = false). { destruct (sext w wd a =? 0) eqn:Q; [|reflexivity]. apply Z.eqb_eq in Q. rewrite Q, sgn_0 in SX by lia. congruence. }
  cbn [ibin]. rewrite NZ, SX, <- (S_small wd n) by exact N.
  assert (UB : (S_ wd n =? - 2 ^ (wd - 1)) && (S_ w a =? -1) = false).
  { destruct ((S_ wd n =? - 2 ^ (wd - 1)) && (S_ w a =? -1)) eqn:Q; [|reflexivity]. exfalso. apply andb_prop in Q. destruct Q as [Q1 Q2]. apply Z.eqb_eq in Q1, Q2. rewrite Q1, Q2 in O.
    change (-1) with (- (1)) in O. rewrite Z.quot_opp_opp, Z.quot_1_r in O by lia. unfold s_out in O. pose proof (pow2_pos (w - 1) ltac:(lia)). lia. }
  rewrite UB. split; reflexivity.
Qed.

Section Gp.
Context `{FpuOps}.
Variable c : cenv.
Variable cfg : xcfg.
Hypothesis HA : c_arch c = X86_64.
Hypothesis GB : gbase_ok c.
Notation G := (G c).
Notation vals := (vals c).
Notation done := (done c).
Variables (kc kcp : areg -> konst) (i : xinst) (g : xst) (rt : bool).
Hypothesis IP : y_ip g = addr_pc_base c (x_end i).
Hypothesis W0 : wf_op (x_op0 i) = true.
Hypothesis W1 : wf_op (x_op1 i) = true.
Hypothesis W2 : wf_op (x_op2 i) = true.
Hypothesis O0 : good_op cfg (x_op0 i) = true.
Hypothesis O1 : good_op cfg (x_op1 i) = true.
Hypothesis O2 : good_op cfg (x_op2 i) = true.
Hypothesis KC : xkc_sound kc g.
Hypothesis SH : shape_ok i = true.
Hypothesis LK : x_lock i = true -> op_ismem (x_op0 i) = true.
Hypothesis LB : x_lock i = true -> lockable (x_mn i) = true.
Notation p := (PcConst (x_end i)).
Notation ok := (ok c i g rt).

Ltac shp MN := unfold shape_ok in SH; rewrite MN in SH; cbv zeta beta iota in SH;
  repeat match goal with H : _ && _ = true |- _ => apply andb_prop in H; destruct H end.
Ltac side := match goal with
  | |- _ = addr_pc_base _ _ => first [exact IP | rewrite ?wr_op_ip, ?wr_loc_ip; exact IP]
  | |- xkc_sound _ _ => exact KC
  | |- op_val _ = true => first [assumption | apply op_rm_val; assumption | apply op_rm_val, op_isreg_rm; assumption]
  | |- op_rm _ = true => first [assumption | apply op_isreg_rm; assumption | apply op_ismem_rm; auto]
  | |- _ => first [assumption | reflexivity | lia]
  end.
Ltac ld := eapply G_OpLoad; [exact GB|side|side|side|side|side|].
Ltac nilr := match goal with |- X86Sim.G _ _ _ _ _ ?l _ => rewrite <- (app_nil_r l) end.
Ltac stv x := unfold OpStoreGp; eapply G_OpStore with (v := x); [assumption|exact GB|side|side|side|side|side|side| |].
Ltac fin := apply G_done; [|apply pcv_const; cbn [y_ip forget set_f set1]; rewrite ?wr_op_ip; exact IP].
Ltac var := apply v_var; reflexivity.
Ltac svar := apply sv_var; [reflexivity|discriminate].
Ltac isa MN := intros g' vs E; unfold isa in E; rewrite MN in E; cbv zeta beta iota in E.
Ltac okn := apply ok_nil.

Ltac shq := repeat match goal with H : _ && _ = true |- _ => apply andb_prop in H; destruct H end.
Ltac opv o V I B := assert (V : op_val o = true) by side;
  lazymatch o with
  | x_op0 _ => pose proof (rdi g _ W0 V) as I; pose proof (bitsok _ W0 V) as B
  | x_op1 _ => pose proof (rdi g _ W1 V) as I; pose proof (bitsok _ W1 V) as B
  | x_op2 _ => pose proof (rdi g _ W2 V) as I; pose proof (bitsok _ W2 V) as B
  end.
Notation sg := (match x_mn i with X_IMUL => true | _ => false end).
(** The double-width product and the overflow flag. *)
Lemma mul_lets : forall (sign : bool) w x y vs l Q, 0 < w -> inr w x -> inr w y ->
  let P := if sign then S_ w x * S_ w y else x * y in
  let ext := if sign then eSExt else eZExt in
  vs 1%nat = Some (V (TInt w) x) -> vs 2%nat = Some (V (TInt w) y) ->
  (forall vs', vs' 1%nat = vs 1%nat -> vs' 2%nat = vs 2%nat -> vs' 3%nat = Some (V (TInt w) (trunc w P)) -> vs' 4%nat = Some (V (TInt (2 * w)) (trunc (2 * w) P)) -> G g p vs' rt l Q) ->
  G g p vs rt ([SLet 3 (eMul (vX 1) (vX 2)); SLet 4 (eMul (ext (2 * w) (vX 1)) (ext (2 * w) (vX 2)))] ++ l) Q.
Proof.
  intros sign w x y vs l Q W X Y P ext V1 V2 K. cbn [app].
  assert (T : trunc w (x * y) = trunc w P) by (unfold P; destruct sign; [apply trunc_mul_S; lia|reflexivity]).
  eapply G_let with (v := V (TInt w) (trunc w P)). { eapply v_bin; [apply v_var; exact V1|apply v_var; exact V2|]. cbn [ibin]. rewrite T. reflexivity. }
  eapply G_let with (v := V (TInt (2 * w)) (trunc (2 * w) P)).
  { unfold ext, P. destruct sign.
    - eapply v_bin; [eapply v_sext; [apply v_var; cbn; exact V1|lia|exact X]|eapply v_sext; [apply v_var; cbn; exact V2|lia|exact Y]|]. cbn [ibin]. unfold sext. rewrite <- !S_small by assumption.
      rewrite trunc_mul_l, trunc_mul_r by lia. reflexivity.
    - eapply v_bin; [eapply v_zext; [apply v_var; cbn; exact V1|lia]|eapply v_zext; [apply v_var; cbn; exact V2|lia]|]. reflexivity. }
  apply K; reflexivity.
Qed.
Lemma mul_flags : forall (sign : bool) w x y vs g0, 0 < w -> inr w x -> inr w y -> y_ip g0 = addr_pc_base c (x_end i) ->
  let P := if sign then S_ w x * S_ w y else x * y in
  let ext := if sign then eSExt else eZExt in
  let o := Some (if sign then s_out w P else 2 ^ w <=? P) in
  vs 1%nat = Some (V (TInt w) x) -> vs 2%nat = Some (V (TInt w) y) -> vs 3%nat = Some (V (TInt w) (trunc w P)) -> vs 4%nat = Some (V (TInt (2 * w)) (trunc (2 * w) P)) ->
  G g0 p vs rt ([SLet 5 (if xl_ovf cfg then E2 (OOv (if sign then SMulOv else UMulOv)) (vX 1) (vX 2)
           else eCmp NE (vX 4) (ext (2 * w) (vX 3)));
   SSet OF (vX 5); SSet CF (vX 5)] ++ SetFlagUndef [SF; ZF; AF; PF]) (done (set1 (set1 (forget [fSF; fZF; fAF; fPF] g0) fCF o) fOF o) rt).
Proof.
  intros sign w x y vs g0 W X Y IP0 P ext o V1 V2 V3 V4. cbn [app].
  eapply G_let with (v := V (TInt 1) (b2z (if sign then s_out w P else 2 ^ w <=? P))).
  { destruct (xl_ovf cfg).
    - destruct sign; (eapply v_eq; [eapply v_ov; [apply v_var; exact V1|apply v_var; exact V2]|]); cbn [ov_sem]; unfold P; rewrite ?S_small by assumption; reflexivity.
    - unfold ext. destruct sign.
      + eapply v_eq; [eapply v_cmp; [apply v_var; exact V4|eapply v_sext; [apply v_var; exact V3|lia|apply trunc_range; lia]]|]. cbn [icmp_sem]. unfold sext. change (sgn w (trunc w P)) with (S_ w P).
        rewrite smul_ne; [reflexivity|lia|]. unfold P. apply smul_range; [lia|apply S_range; lia|apply S_range; lia].
      + eapply v_eq; [eapply v_cmp; [apply v_var; exact V4|eapply v_zext; [apply v_var; exact V3|lia]]|]. cbn [icmp_sem]. unfold P. rewrite umul_ne by assumption. reflexivity. }
  eapply (G_flag c HA _ _ _ _ fOF); [var|discriminate|]. eapply (G_flag c HA _ _ _ _ fCF); [var|discriminate|].
  nilr. change [SF; ZF; AF; PF] with (map cell [fSF; fZF; fAF; fPF]). apply G_undef.
  apply G_done; [|apply pcv_const; exact IP0]. repeat split; auto. intros f b. destruct f; cbn; auto.
Qed.
Lemma G_mulstore : forall w P vs l Q, okw w = true -> vs 4%nat = Some (V (TInt (2 * w)) (trunc (2 * w) P)) ->
  G (if w =? 8 then wr_reg g 16 0 P else wr_reg (wr_reg g w 0 P) w 2 (P / 2^w)) p vs rt l Q ->
  G g p vs rt ((if w =? 8 then StoreGpX RAX 16 (vX 4) else StoreGpX RAX w (eTrunc w (vX 4)) ++ StoreGpX RDX w (eTrunc w (eLShr (vX 4) (cI (2 * w) w)))) ++ l) Q.
Proof.
  intros w P vs l Q O V4 K. assert (8 <= w <= 64) by (unfold okw in O; lia). destruct (w =? 8) eqn:Q8.
  - apply Z.eqb_eq in Q8. subst w. eapply G_StoreGp with (v := P); [exact HA|apply v_var; exact V4|reflexivity|lia|exact K].
  - rewrite <- app_assoc. eapply G_StoreGp with (v := P). { exact HA. }
    { eapply v_eq; [eapply v_trunc; [apply v_var; exact V4|lia|apply trunc_range; lia]|]. rewrite trunc_trunc_le by lia. reflexivity. }
    { exact O. } { lia. }
    eapply G_StoreGp with (v := P / 2 ^ w); [exact HA| |exact O|lia|exact K].
    eapply v_eq; [eapply v_trunc with (w := 2 * w); [eapply v_bin; [apply v_var; exact V4|apply v_cI|]|lia|]|].
    + cbn [ibin]. rewrite (trunc_small (2 * w) w). 2: { unfold inr. assert (2 * w < 2 ^ (2 * w)) by (apply Z.pow_gt_lin_r; lia). lia. }
      replace (w <? 2 * w) with true by lia. rewrite Z.shiftr_div_pow2 by lia. reflexivity.
    + apply div_inr; [lia|lia|apply trunc_range; lia].
    + rewrite wide_hi by lia. reflexivity.
Qed.
Lemma mulreg_ip : forall w P, y_ip (if w =? 8 then wr_reg g 16 0 P else wr_reg (wr_reg g w 0 P) w 2 (P / 2^w)) = y_ip g.
Proof. intros. destruct (w =? 8); reflexivity. Qed.
Lemma L_MUL : x_mn i = X_MUL -> ok [] (LiftMul c cfg kc i).
Proof.
  intros MN. shp MN. okn. isa MN. injection E as <-. opv (x_op0 i) V0 J0 B0. pose proof (op_bits_ok _ W0 V0) as OW.
  unfold LiftMul. rewrite MN. set (w := op_bits (x_op0 i)) in *.
  replace (op_there (x_op2 i)) with false by (destruct (x_op2 i); try discriminate; reflexivity).
  replace (op_there (x_op1 i)) with false by (destruct (x_op1 i); try discriminate; reflexivity).
  rewrite <- app_assoc. ld. cbn [app]. fold w. eapply G_let. { apply (v_gp c _ _ _ 0); [lia|exact OW]. }
  set (x := rd_op g (x_op0 i)) in *. set (y := U w (y_r g 0)). assert (J1 : inr w y) by (apply trunc_range; lia).
  eapply (mul_lets false w x y); [lia|exact J0|exact J1|reflexivity|reflexivity|]. intros vs' E1 E2 E3 E4. cbv beta iota in E3, E4.
  eapply G_mulstore; [exact OW|exact E4|]. 
  eapply (mul_flags false w x y); [lia|exact J0|exact J1|rewrite mulreg_ip; exact IP|rewrite E1; reflexivity|rewrite E2; reflexivity|exact E3|exact E4].
Qed.
Lemma L_IMUL : x_mn i = X_IMUL -> ok [] (LiftMul c cfg kc i).
Proof.
  intros MN. shp MN. okn. isa MN. opv (x_op0 i) V0 J0 B0. pose proof (op_bits_ok _ W0 V0) as OW.
  unfold LiftMul. rewrite MN. set (w := op_bits (x_op0 i)) in *. fold w in E.
  destruct (op_there (x_op2 i)) eqn:T2.
  - shq. opv (x_op1 i) V1 J1 B1. opv (x_op2 i) V2 J2 B2. 
    assert (T1 : op_there (x_op1 i) = true) by (destruct (x_op1 i); try discriminate; reflexivity). rewrite T1.
    assert (Q1 : op_bits (x_op1 i) = w) by lia. assert (Q2 : op_bits (x_op2 i) = w) by lia. rewrite Q1 in J1. rewrite Q2 in J2.
    injection E as <-. rewrite <- app_assoc. ld. ld. rewrite Q1, Q2.
    eapply (mul_lets true w _ _); [lia|exact J1|exact J2|reflexivity|reflexivity|]. intros vs' E1 E2 E3 E4. cbv beta iota in E3, E4.
    stv (S_ w (rd_op g (x_op1 i)) * S_ w (rd_op g (x_op2 i))). { apply v_var; exact E3. }
    eapply (mul_flags true w _ _); [lia|exact J1|exact J2|rewrite wr_op_ip; exact IP|rewrite E1; reflexivity|rewrite E2; reflexivity|exact E3|exact E4].
  - destruct (op_there (x_op1 i)) eqn:T1.
    + shq. opv (x_op1 i) V1 J1 B1. assert (Q1 : op_bits (x_op1 i) = w) by lia. rewrite Q1 in J1.
      injection E as <-. rewrite <- app_assoc. ld. ld. rewrite Q1. fold w.
      eapply (mul_lets true w _ _); [lia|exact J0|exact J1|reflexivity|reflexivity|]. intros vs' E1 E2 E3 E4. cbv beta iota in E3, E4.
      stv (S_ w (rd_op g (x_op0 i)) * S_ w (rd_op g (x_op1 i))). { apply v_var; exact E3. }
      eapply (mul_flags true w _ _); [lia|exact J0|exact J1|rewrite wr_op_ip; exact IP|rewrite E1; reflexivity|rewrite E2; reflexivity|exact E3|exact E4].
    + injection E as <-. rewrite <- app_assoc. ld. cbn [app]. fold w. eapply G_let. { apply (v_gp c _ _ _ 0); [lia|exact OW]. }
      set (x := rd_op g (x_op0 i)) in *. set (y := U w (y_r g 0)). assert (J1 : inr w y) by (apply trunc_range; lia).
      assert (SY : S_ w (y_r g 0) = S_ w y). { apply S_congr. unfold y. change U with trunc. symmetry. apply trunc_trunc; lia. }
      rewrite SY.
      eapply (mul_lets true w x y); [lia|exact J0|exact J1|reflexivity|reflexivity|]. intros vs' E1 E2 E3 E4. cbv beta iota in E3, E4.
      eapply G_mulstore; [exact OW|exact E4|].
      eapply (mul_flags true w x y); [lia|exact J0|exact J1|rewrite mulreg_ip; exact IP|rewrite E1; reflexivity|rewrite E2; reflexivity|exact E3|exact E4].
Qed.
Lemma L_DIV : forall kd, x_mn i = X_DIV \/ x_mn i = X_IDIV -> kd_sound kd (op_bits (x_op0 i)) g -> ok [] (LiftDiv c cfg kc kd i).
Proof.
  intros kd MN KD. assert (R0 : op_rm (x_op0 i) = true) by (destruct MN as [MN|MN]; shp MN; assumption).
  okn. intros g' vs E. opv (x_op0 i) V0 J0 B0. pose proof (op_bits_ok _ W0 V0) as OW.
  unfold LiftDiv. set (w := op_bits (x_op0 i)) in *. set (a := rd_op g (x_op0 i)) in *.
  set (sign := match x_mn i with X_IDIV => true | _ => false end). cbv zeta.
  set (short := match kd with DNone => false | DZero => negb sign | DSext => sign end).
  set (wd := if w =? 8 then 16 else if short then w else 2 * w).
  set (n := if w =? 8 then U 16 (y_r g 0) else if short then U w (y_r g 0) else U w (y_r g 2) * 2 ^ w + U w (y_r g 0)).
  set (N := if sign then (if w =? 8 then S_ 16 (y_r g 0) else S_ (2 * w) (U w (y_r g 2) * 2 ^ w + U w (y_r g 0))) else (if w =? 8 then U 16 (y_r g 0) else U w (y_r g 2) * 2 ^ w + U w (y_r g 0))).
  set (d := if sign then S_ w a else a).
  set (q := if sign then Z.quot N d else N / d). set (m := if sign then Z.rem N d else N mod d).
  assert (W16 : w = 8 \/ 16 <= w) by (unfold okw in OW; lia).
  assert (WD : w <= wd /\ (w = 8 -> wd = 16) /\ 16 <= wd <= 128) by (unfold wd; destruct (w =? 8) eqn:Q8, short; lia).
  assert (IN : inr wd n).
  { unfold n, wd. destruct (w =? 8); [apply trunc_range; lia|]. destruct short; [apply trunc_range; lia|]. apply cat_inr; [lia|apply trunc_range; lia|apply trunc_range; lia]. }
  assert (NN : if sign then S_ wd n = N else n = N).
  { unfold n, wd, N, short. clearbody sign. destruct sign.
    - destruct (w =? 8) eqn:Q8; [unfold U; apply S_congr; apply trunc_trunc; lia|]. destruct kd; try reflexivity. cbn [kd_sound] in KD. rewrite KD, S_cat by lia. apply S_congr. apply trunc_trunc. lia.
    - destruct (w =? 8); [reflexivity|]. destruct kd; try reflexivity. cbn [kd_sound negb] in *. rewrite KD. lia. }
  assert (SP : d <> 0 /\ (if sign then s_out w q = false else q < 2 ^ w) /\
     g' = forget [fCF; fOF; fSF; fZF; fAF; fPF] (if w =? 8 then wr_hi (wr_reg g 8 0 q) 0 m else wr_reg (wr_reg g w 0 q) w 2 m)).
  { unfold isa in E. unfold q, m, d, N, sign. clear NN. destruct MN as [M|M]; rewrite M in E |- *; cbv zeta beta iota in E; fold w in E; fold a in E.
    - match type of E with (if ?b then _ else _) = _ => destruct b eqn:Q; [discriminate|] end. injection E as <-. split; [lia|]. split; [lia|reflexivity].
    - match type of E with (if ?b then _ else _) = _ => destruct b eqn:Q; [discriminate|] end. injection E as <-. apply orb_false_iff in Q. destruct Q as [Q1 Q2]. split; [lia|]. split; [exact Q2|reflexivity]. }
  clear E. destruct SP as (DZ & OV & ->).
  assert (ST : forall l Q, G g p (upd_var vs 1 (V (TInt wd) n)) rt l Q -> G g p vs rt ((if w =? 8 then [SLet 1 (rG RAX I16)] else if short then [SLet 1 (rG RAX (facet_In w))]
     else [SLet 1 (eOr (eZExt (2 * w) (rG RAX (facet_In w))) (eShl (eZExt (2 * w) (rG RDX (facet_In w))) (cI (2 * w) w)))]) ++ l) Q).
  { intros l Q K. unfold n, wd in K. destruct (w =? 8); [|destruct short].
    - cbn [app]. eapply G_let; [apply (v_gp c _ _ _ 0 16); [lia|reflexivity]|exact K].
    - cbn [app]. eapply G_let; [apply (v_gp c _ _ _ 0 w); [lia|exact OW]|exact K].
    - cbn [app]. eapply G_let; [|exact K]. pose proof (trunc_range w (y_r g 0) ltac:(lia)) as T0. pose proof (trunc_range w (y_r g 2) ltac:(lia)) as T2.
      eapply v_bin; [eapply v_zext; [apply (v_gp c _ _ _ 0 w); [lia|exact OW]|lia]|eapply v_bin; [eapply v_zext; [apply (v_gp c _ _ _ 2 w); [lia|exact OW]|lia]|apply v_cI|]|].
      + cbn [ibin]. rewrite (trunc_small (2 * w) w). 2: { unfold inr. assert (2 * w < 2 ^ (2 * w)) by (apply Z.pow_gt_lin_r; lia). lia. }
        replace (w <? 2 * w) with true by lia. rewrite trunc_small. { reflexivity. }
        rewrite Z.shiftl_mul_pow2 by lia. change U with trunc. pose proof (cat_inr w (trunc w (y_r g 2)) 0 ltac:(lia) T2) as CI. rewrite Z.add_0_r in CI. apply CI. unfold inr. pose proof (pow2_pos w ltac:(lia)). lia.
      + cbn [ibin]. rewrite Z.lor_comm, shl_lor by (lia || exact T0). reflexivity. }
  apply ST. clear ST. ld. fold w a. cbn [app].
  set (av := if sign then sext w wd a else a).
  eapply G_let with (v := V (TInt wd) av). { unfold av. destruct sign; [eapply v_sext; [var|lia|exact J0]|eapply v_zext; [var|lia]]. }
  assert (DR : exists zq zr, ibin (if sign then SDiv else UDiv) wd n av = IV zq /\ ibin (if sign then SRem else URem) wd n av = IV zr /\ inr wd zq /\ inr wd zr /\ trunc w zq = trunc w q /\ trunc w zr = trunc w m).
  { unfold av, q, m, d in *. clearbody N n wd sign. destruct sign.
    - destruct (sdivrem wd w _ a ltac:(lia) ltac:(lia) IN J0 DZ ltac:(rewrite NN; exact OV)) as [D1 D2]. rewrite NN in D1, D2. do 2 eexists. split; [exact D1|]. split; [exact D2|].
      split; [apply trunc_range; lia|]. split; [apply trunc_range; lia|]. split; apply trunc_trunc_le; lia.
    - cbn [ibin]. replace (a =? 0) with false by lia. rewrite NN. do 2 eexists. split; [reflexivity|]. split; [reflexivity|]. rewrite NN in IN. unfold inr in IN, J0.
      assert (0 < a) by lia. split; [|split; [|split; reflexivity]].
      + unfold inr. split; [apply Z.div_pos; lia|]. apply Z.le_lt_trans with N; [|lia]. apply Z.div_le_upper_bound; [lia|]. nia.
      + unfold inr. pose proof (Z.mod_pos_bound N a ltac:(lia)). assert (2 ^ w <= 2 ^ wd) by (apply Z.pow_le_mono_r; lia). lia. }
  destruct DR as (zq & zr & D1 & D2 & R1 & R2 & T1 & T2).
  eapply G_let with (v := V (TInt w) (trunc w q)). { rewrite <- T1. eapply v_trunc with (w := wd); [eapply v_bin; [var|var|exact D1]|lia|exact R1]. }
  eapply G_let with (v := V (TInt w) (trunc w m)). { rewrite <- T2. eapply v_trunc with (w := wd); [eapply v_bin; [var|var|exact D2]|lia|exact R2]. }
  destruct (w =? 8) eqn:Q8.
  - apply Z.eqb_eq in Q8. rewrite <- app_assoc. change (StoreGpFacet RAX I8 (vX 3)) with (StoreGpX RAX 8 (vX 3)). eapply G_StoreGp with (v := q); [exact HA|rewrite <- Q8; var|reflexivity|lia|].
    cbn [app StoreGpFacet]. eapply (G_wrhi c HA _ _ _ _ 0 _ (trunc 8 m)); [rewrite <- Q8; var|apply trunc_range; lia|lia|].
    nilr. change [OF; SF; ZF; AF; PF; CF] with (map cell [fOF; fSF; fZF; fAF; fPF; fCF]). apply G_undef.
    apply G_done; [|apply pcv_const; exact IP]. rewrite wr_hi_trunc. repeat split; auto. intros f b. destruct f; cbn; auto.
  - rewrite <- app_assoc. eapply G_StoreGp with (v := q); [exact HA|var|exact OW|lia|]. eapply G_StoreGp with (v := m); [exact HA|var|exact OW|lia|].
    nilr. change [OF; SF; ZF; AF; PF; CF] with (map cell [fOF; fSF; fZF; fAF; fPF; fCF]). apply G_undef.
    apply G_done; [|apply pcv_const; exact IP]. repeat split; auto. intros f b. destruct f; cbn; auto.
Qed.
End Gp.
