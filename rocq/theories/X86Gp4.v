(** Shifts and rotates. *)

From Coq Require Import ZArith Lia ZifyBool List Bool.
From Verif Require Import Bits IR Facet Dsl Rv64 Rv64Spec Rv64Sim Rv64Arith Rv64Int X86 X86Spec X86Arith X86Sim X86Ops X86Gp X86Gp2 X86Gp3.
Import ListNotations.
Open Scope Z_scope.
Ltac Zify.zify_post_hook ::= Z.div_mod_to_equations.

Ltac gle_flags := repeat split; auto; let f := fresh in let b := fresh in intros f b; destruct f; cbn; auto.
Lemma mask_val : forall w wx b, okw w = true -> 8 <= wx <= 64 -> inr 8 b -> (w = 64 -> wx = 64) ->
  Z.land b (trunc wx (if w =? 64 then 0x3f else 0x1f)) = cmask w b.
Proof.
  intros w wx b O WX B W64. unfold cmask. rewrite (trunc_small wx).
  - destruct (w =? 64); [change 0x3f with (2^6 - 1)|change 0x1f with (2^5 - 1)]; rewrite land_mask by lia; reflexivity.
  - apply (inr_le 8); [lia|]. unfold inr. destruct (w =? 64); cbn; lia.
Qed.
Lemma cmask_range : forall w b, okw w = true -> 0 <= cmask w b < (if w =? 64 then 64 else 32).
Proof. intros w b O. unfold cmask. destruct (w =? 64); apply Z.mod_pos_bound; lia. Qed.
Lemma trunc1_shiftr : forall x k, 0 <= k -> trunc 1 (Z.shiftr x k) = b2z (Z.testbit x k).
Proof.
  intros x k K. unfold trunc. change (2^1) with 2. rewrite Zmod_odd, <- Z.bit0_odd, Z.shiftr_spec, Z.add_0_l by lia. reflexivity.
Qed.
Lemma S_testbit : forall w a k, 0 < w -> 0 <= k < w -> Z.testbit (S_ w a) k = Z.testbit a k.
Proof. intros w a k W K. rewrite <- (trunc_low_bits w (S_ w a)), trunc_S, trunc_low_bits by lia. reflexivity. Qed.
Lemma sf_lxor : forall w a r, 0 < w -> inr w a -> (sgn w (Z.lxor a (trunc w r)) <? sgn w (trunc w 0)) = xorb (sf_of w a) (sf_of w r).
Proof.
  intros w a r W A. assert (R : inr w (trunc w r)) by (apply trunc_range; lia).
  rewrite (trunc_small w 0) by (apply inr0; lia). rewrite sgn_0 by lia.
  rewrite <- (sf_trunc w r) by lia.
  rewrite <- (trunc_small w (Z.lxor a (trunc w r))) by (apply lxor_inr; assumption || lia).
  rewrite sf_neg by lia. rewrite !sf_testbit by lia. apply Z.lxor_spec.
Qed.
Lemma sf_sgn : forall w a, 0 < w -> sf_of w a = (S_ w a <? 0).
Proof. intros w a W. rewrite <- sf_neg by lia. reflexivity. Qed.
Lemma sf_S : forall w a, 0 < w -> sf_of w (S_ w a / 2) = sf_of w a.
Proof.
  intros w a W. pose proof (S_range w a W) as R. rewrite (sf_sgn w a), (sf_sgn w (S_ w a / 2)) by lia. set (s := S_ w a) in *. clearbody s.
  pose proof (pow2_pos (w - 1) ltac:(lia)). rewrite S_id; [lia|lia|]. lia.
Qed.
Lemma shld_val : forall w a b k, 0 < w -> inr w a -> inr w b -> 0 <= k < w ->
  fsh_sem true w a b k = trunc w (a * 2^k + b / 2^(w - k)).
Proof.
  intros w a b k W A B K. unfold fsh_sem. rewrite (Z.mod_small k w) by lia. rewrite Z.shiftl_mul_pow2, Z.shiftr_div_pow2 by lia.
  f_equal. replace (2^w) with (2^k * 2^(w - k)) by (rewrite <- Z.pow_add_r by lia; f_equal; lia).
  pose proof (pow2_pos k ltac:(lia)). pose proof (pow2_pos (w - k) ltac:(lia)).
  replace ((a * (2 ^ k * 2 ^ (w - k)) + b) * 2 ^ k) with ((a * 2^k * 2^(w-k) + b) * 2^k) by ring.
  rewrite (Z.mul_comm (2^k) (2^(w-k))). rewrite Z.div_mul_cancel_r by lia. rewrite Z.div_add_l by lia. reflexivity.
Qed.
Lemma shrd_val : forall w a b k, 0 < w -> inr w a -> inr w b -> 0 <= k < w ->
  fsh_sem false w b a k = trunc w (a / 2^k + b * 2^(w - k)).
Proof.
  intros w a b k W A B K. unfold fsh_sem. rewrite (Z.mod_small k w) by lia. rewrite Z.shiftr_div_pow2 by lia.
  f_equal. replace (2^w) with (2^(w - k) * 2^k) by (rewrite <- Z.pow_add_r by lia; f_equal; lia).
  pose proof (pow2_pos k ltac:(lia)). rewrite Z.mul_assoc. rewrite Z.div_add_l by lia. lia.
Qed.
Lemma wr_op_congr : forall g o v v', wf_op o = true -> op_rm o = true -> trunc (op_bits o) v = trunc (op_bits o) v' ->
  gle (wr_op g o v) (wr_op g o v').
Proof.
  intros g o v v' W R T. destruct o as [|w hi r|w z|d|w m]; try discriminate; cbn [op_bits wf_op] in *; unfold wr_op, loc_of.
  - destruct hi; cbn [wr_loc].
    + assert (w = 8) by bsp. subst w. rewrite <- (wr_hi_trunc g (r - 4) v), <- (wr_hi_trunc g (r - 4) v'), T. apply gle_refl.
    + assert (okw w = true) by bsp. rewrite <- (wr_reg_trunc g w r v), <- (wr_reg_trunc g w r v'), T by assumption. apply gle_refl.
  - cbn [wr_loc]. repeat split; auto. intros x. cbn [set_m y_m]. assert (okw w = true) by bsp.
    rewrite <- (wr_mem_trunc w _ _ v), <- (wr_mem_trunc w _ _ v'), T by assumption. reflexivity.
Qed.

Section Gp.
Context `{FpuOps}.
Variable c : cenv.
Variable cfg : xcfg.
Hypothesis HA : c_arch c = X86_64.
Hypothesis GB : gbase_ok c.
Notation G := (G c).
Notation vals := (vals c).
Notation done := (done c).
Variables (kc kcp : areg -> konst) (i : xinst) (g : xst) (rt : bool).
Hypothesis IP : y_ip g = addr_pc_base c (x_end i).
Hypothesis W0 : wf_op (x_op0 i) = true.
Hypothesis W1 : wf_op (x_op1 i) = true.
Hypothesis W2 : wf_op (x_op2 i) = true.
Hypothesis O0 : good_op cfg (x_op0 i) = true.
Hypothesis O1 : good_op cfg (x_op1 i) = true.
Hypothesis O2 : good_op cfg (x_op2 i) = true.
Hypothesis KC : xkc_sound kc g.
Hypothesis SH : shape_ok i = true.
Hypothesis LK : x_lock i = true -> op_ismem (x_op0 i) = true.
Hypothesis LB : x_lock i = true -> lockable (x_mn i) = true.
Notation p := (PcConst (x_end i)).
Notation ok := (ok c i g rt).

Ltac shp MN := unfold shape_ok in SH; rewrite MN in SH; cbv zeta beta iota in SH;
  repeat match goal with H : _ && _ = true |- _ => apply andb_prop in H; destruct H end.
Ltac side := match goal with
  | |- _ = addr_pc_base _ _ => first [exact IP | rewrite ?wr_op_ip, ?wr_loc_ip; exact IP]
  | |- xkc_sound _ _ => exact KC
  | |- op_val _ = true => first [assumption | apply op_rm_val; assumption | apply op_rm_val, op_isreg_rm; assumption]
  | |- op_rm _ = true => first [assumption | apply op_isreg_rm; assumption | apply op_ismem_rm; auto]
  | |- _ => first [assumption | reflexivity | lia]
  end.
Ltac ld := eapply G_OpLoad; [exact GB|side|side|side|side|side|].
Ltac nilr := match goal with |- X86Sim.G _ _ _ _ _ ?l _ => rewrite <- (app_nil_r l) end.
Ltac stv x := unfold OpStoreGp; eapply G_OpStore with (v := x); [assumption|exact GB|side|side|side|side|side|side| |].
Ltac fin := apply G_done; [|apply pcv_const; cbn [y_ip forget set_f set1]; rewrite ?wr_op_ip; exact IP].
Ltac var := apply v_var; reflexivity.
Ltac svar := apply sv_var; [reflexivity|discriminate].
Ltac isa MN := intros g' vs E; unfold isa in E; rewrite MN in E; cbv zeta beta iota in E.
Ltac okn := apply ok_nil.

Ltac isx M E := unfold isa in E; rewrite M in E; cbv zeta beta iota in E; repeat match goal with x := ?b : Z |- _ => progress fold x in E end.
Ltac opv o V I B := assert (V : op_val o = true) by side;
  lazymatch o with
  | x_op0 _ => pose proof (rdi g _ W0 V) as I; pose proof (bitsok _ W0 V) as B
  | x_op1 _ => pose proof (rdi g _ W1 V) as I; pose proof (bitsok _ W1 V) as B
  | x_op2 _ => pose proof (rdi g _ W2 V) as I; pose proof (bitsok _ W2 V) as B
  end.
Lemma v_binP : forall g0 p0 vs op a b w x y, vals g0 p0 vs a (V (TInt w) x) -> vals g0 p0 vs b (V (TInt w) y) -> ibin op w x y = IR.IP ->
  vals g0 p0 vs (eBin op a b) (Poison (TInt w)).
Proof.
  intros g0 p0 vs op a b w x y A B I s rt' At_. pose proof (A s rt' At_) as EA. pose proof (B s rt' At_) as EB.
  unfold ev, eBin in *. cbn [eval]. rewrite EA, EB. cbn [bind sem2]. unfold bin_sem, same2. cbn [ty_of]. rewrite ty_eqb_refl. cbn [int_shape]. rewrite I. reflexivity.
Qed.
Lemma v_castP : forall g0 p0 vs a k t t', vals g0 p0 vs a (Poison t) -> cast_fun k t t' <> None ->
  vals g0 p0 vs (E1 (OCast k t') a) (Poison t').
Proof.
  intros g0 p0 vs a k t t' A L s rt' At_. pose proof (A s rt' At_) as EA. unfold ev, eTrunc in *. cbn [eval]. rewrite EA. cbn [bind sem1]. unfold cast_sem. cbn [ty_of].
  destruct (cast_fun k t t'); [reflexivity|congruence].
Qed.
Lemma G_flagO : forall g0 p0 vs rt0 f e o l Q, vals g0 p0 vs e (match o with Some b => V (TInt 1) (b2z b) | None => Poison (TInt 1) end) -> f <> fPF ->
  G (set1 g0 f o) p0 vs rt0 l Q -> G g0 p0 vs rt0 (SSet (cell f) e :: l) Q.
Proof.
  intros g0 p0 vs rt0 f e o l Q E N K. destruct o as [b|]; [eapply (G_flag c HA); eassumption|].
  intros s A. cbn [run run1]. rewrite (E s rt0 A). cbn [bind set_cell].
  destruct A as (R & P & VS & RT). apply K. split; [|repeat split; assumption]. apply (xrel_flag); [assumption|discriminate].
Qed.
(** Flags a shift by a masked count of zero must preserve; the lifted code changes them. *)
Definition shift_lost (k : Z) : list xflag := if k =? 0 then [fCF; fOF; fAF; fZF; fSF; fPF] else [].
Definition sh_op (m : xmn) : binop := match m with X_SHL => Shl | X_SHR => LShr | _ => AShr end.
Lemma L_SHIFT : x_mn i = X_SHL \/ x_mn i = X_SHR \/ x_mn i = X_SAR ->
  ok (shift_lost (cmask (op_bits (x_op0 i)) (rd_op g (x_op1 i)))) (LiftShift c cfg kc i (sh_op (x_mn i))).
Proof.
  intros MN. assert (S3 : op_rm (x_op0 i) = true /\ op_val (x_op1 i) = true /\ op_bits (x_op1 i) = 8).
  { destruct MN as [MN|[MN|MN]]; shp MN; (split; [side|split; [side|lia]]). }
  destruct S3 as (R0 & V1 & B8). opv (x_op0 i) V0 J0 B0. pose proof (rdi g _ W1 V1) as J1. rewrite B8 in J1. pose proof (op_bits_ok _ W0 V0) as OW.
  intros g' vs E. unfold LiftShift. set (w := op_bits (x_op0 i)) in *. set (wx := if 32 <=? w then w else 32).
  set (a := rd_op g (x_op0 i)) in *. set (b := rd_op g (x_op1 i)) in *. set (k := cmask w b).
  assert (WX : w <= wx <= 64 /\ 32 <= wx) by (unfold wx; destruct (32 <=? w) eqn:Q; lia).
  assert (KR : 0 <= k < wx). { pose proof (cmask_range w b OW) as C. fold k in C. unfold wx. unfold okw in OW. destruct (w =? 64) eqn:Q6, (32 <=? w) eqn:Q3; lia. }
  assert (PW : wx < 2 ^ wx) by (apply Z.pow_gt_lin_r; lia).
  set (x := match x_mn i with X_SAR => trunc wx (S_ w a) | _ => a end).
  assert (IX : inr wx x). { unfold x. assert (inr wx a) by (eapply inr_le; [|exact J0]; lia). destruct (x_mn i); try assumption. apply trunc_range. lia. }
  set (r := match x_mn i with X_SHL => a * 2^k | X_SHR => a / 2^k | _ => S_ w a / 2^k end).
  set (cfv := match x_mn i with X_SHL => if (0 <=? w - k) && (w - k <? wx) then Some (Z.testbit a (w - k)) else None
              | _ => if k =? 0 then None else Some (Z.testbit x (k - 1)) end).
  assert (SG : sgn wx (trunc wx (S_ w a)) = S_ w a).
  { apply sgn_trunc_id; [lia|]. pose proof (S_range w a ltac:(lia)) as SR. assert (2 ^ (w - 1) <= 2 ^ (wx - 1)) by (apply Z.pow_le_mono_r; lia). lia. }
  ld. cbn [app]. eapply G_let with (v := V (TInt wx) x).
  { unfold x, wx. destruct (32 <=? w) eqn:Q3.
    - eapply v_eq; [var|]. fold w a. destruct (x_mn i); try reflexivity. rewrite trunc_S by lia. symmetry. apply trunc_small. exact J0.
    - destruct MN as [M|[M|M]]; rewrite M.
      + eapply v_zext; [var|lia].
      + eapply v_zext; [var|lia].
      + eapply v_eq; [eapply v_sext; [var|fold w; lia|exact J0]|]. unfold sext. fold w a. rewrite S_small by exact J0. reflexivity. }
  ld. cbn [app]. rewrite B8. fold b. eapply G_let with (v := V (TInt wx) k).
  { eapply v_bin; [eapply v_zext; [var|lia]|apply v_cI|]. cbn [ibin]. f_equal. apply mask_val; [exact OW|lia|exact J1|]. intro Q. unfold wx. rewrite Q. reflexivity. }
  assert (EX : exists z, ibin (sh_op (x_mn i)) wx x k = IV z /\ inr wx z /\ trunc w z = trunc w r).
  { unfold x, r. assert (K1 : (k <? wx) = true) by lia. unfold sh_op, x, r in *. destruct MN as [M|[M|M]]; rewrite M in *; cbn [ibin]; rewrite K1; eexists; (split; [reflexivity|]).
    - split; [apply trunc_range; lia|]. rewrite trunc_trunc_le, Z.shiftl_mul_pow2 by lia. reflexivity.
    - rewrite Z.shiftr_div_pow2 by lia. split; [|reflexivity]. apply div_inr; [lia|lia|]. exact IX.
    - rewrite SG. split; [apply trunc_range; lia|]. rewrite trunc_trunc_le, Z.shiftr_div_pow2 by lia. reflexivity. }
  destruct EX as (z & EZ & IZ & TZ).
  eapply G_let with (v := V (TInt w) (trunc w r)).
  { rewrite <- TZ. eapply v_trunc with (w := wx); [|lia|exact IZ]. eapply v_bin; [var|var|exact EZ]. }
  stv r. { var. } cbn [app].
  eapply G_let with (v := match cfv with Some q => V (TInt wx) (Z.shiftr x (match x_mn i with X_SHL => w - k | _ => k - 1 end)) | None => Poison (TInt wx) end).
  { assert (SUB : forall m, - wx <= m < 2 ^ wx -> trunc wx m = if m <? 0 then m + 2^wx else m).
    { intros m M. unfold trunc. destruct (m <? 0) eqn:Q; [|apply Z.mod_small; lia]. rewrite <- (Z.mod_add m 1) by lia. rewrite Z.mul_1_l. apply Z.mod_small. lia. }
    assert (TW : trunc wx w = w) by (apply trunc_small; unfold inr; lia).
    assert (T1 : trunc wx 1 = 1) by (apply trunc_small; unfold inr; lia).
    assert (LS : forall m e, vals (wr_op g (x_op0 i) r) p (upd_var (upd_var (upd_var (upd_var (upd_var vs 1 (V (TInt w) a)) 2 (V (TInt wx) x)) 3 (V (TInt 8) b)) 3 (V (TInt wx) k)) 4 (V (TInt w) (trunc w r))) e (V (TInt wx) (trunc wx m)) ->
      - wx <= m <= wx ->
      vals (wr_op g (x_op0 i) r) p (upd_var (upd_var (upd_var (upd_var (upd_var vs 1 (V (TInt w) a)) 2 (V (TInt wx) x)) 3 (V (TInt 8) b)) 3 (V (TInt wx) k)) 4 (V (TInt w) (trunc w r))) (eLShr (vX 2) e)
       (if (0 <=? m) && (m <? wx) then V (TInt wx) (Z.shiftr x m) else Poison (TInt wx))).
    { intros m e VE MR. destruct ((0 <=? m) && (m <? wx)) eqn:Q.
      - eapply v_bin; [var|exact VE|]. cbn [ibin]. rewrite SUB by lia. replace (m <? 0) with false by lia. replace (m <? wx) with true by lia. reflexivity.
      - eapply v_binP; [var|exact VE|]. cbn [ibin]. rewrite SUB by lia. assert (2 * wx <= 2 ^ wx) by (clear -WX; assert (2 ^ wx = 2 * 2 ^ (wx - 1)) by (apply pow2_succ; lia); pose proof (Z.pow_gt_lin_r 2 (wx - 1)); lia).
        destruct (m <? 0) eqn:Q0; [replace (m + 2 ^ wx <? wx) with false by lia|replace (m <? wx) with false by lia]; reflexivity. }
    unfold cfv. destruct MN as [M|[M|M]]; rewrite M in *.
    - specialize (LS (w - k) (eSub (cI wx w) (vX 3))). destruct ((0 <=? w - k) && (w - k <? wx)); (apply LS; [|lia]);
      (eapply v_bin; [apply v_cI|var|]; cbn [ibin]; rewrite TW; reflexivity).
    - specialize (LS (k - 1) (eSub (vX 3) (cI wx 1))). replace (k - 1 <? wx) with true in LS by lia. rewrite andb_true_r in LS.
      destruct (k =? 0) eqn:Q; [replace (0 <=? k - 1) with false in LS by lia|replace (0 <=? k - 1) with true in LS by lia];
      (apply LS; [|lia]); (eapply v_bin; [var|apply v_cI|]; cbn [ibin]; rewrite T1; reflexivity).
    - specialize (LS (k - 1) (eSub (vX 3) (cI wx 1))). replace (k - 1 <? wx) with true in LS by lia. rewrite andb_true_r in LS.
      destruct (k =? 0) eqn:Q; [replace (0 <=? k - 1) with false in LS by lia|replace (0 <=? k - 1) with true in LS by lia];
      (apply LS; [|lia]); (eapply v_bin; [var|apply v_cI|]; cbn [ibin]; rewrite T1; reflexivity). }
  eapply (G_zf c HA _ _ _ _ w _ r); [var|lia|]. eapply (G_sap c HA _ _ _ _ w _ r); [svar|lia|].
  change CF with (cell fCF). change OF with (cell fOF).
  eapply (G_flagO _ _ _ _ fCF _ cfv); [|discriminate|].
  { destruct cfv as [q|] eqn:EC.
    - assert (KK : 0 <= match x_mn i with X_SHL => w - k | _ => k - 1 end /\ q = Z.testbit x (match x_mn i with X_SHL => w - k | _ => k - 1 end)).
      { unfold cfv, x in *. destruct MN as [M|[M|M]]; rewrite M in *.
        - destruct ((0 <=? w - k) && (w - k <? wx)) eqn:Q; [|discriminate]. injection EC as <-. split; [lia|reflexivity].
        - destruct (k =? 0) eqn:Q; [discriminate|]. injection EC as <-. split; [lia|reflexivity].
        - destruct (k =? 0) eqn:Q; [discriminate|]. injection EC as <-. split; [lia|reflexivity]. }
      destruct KK as [K0 ->]. rewrite <- trunc1_shiftr by exact K0. eapply v_trunc with (w := wx); [var|lia|].
      rewrite Z.shiftr_div_pow2 by exact K0. apply div_inr; [lia|exact K0|exact IX].
    - eapply v_castP; [var|]. unfold cast_fun. cbn [ty_eqb icast]. destruct (wx =? 1); [discriminate|]. replace (1 <=? wx) with true by lia. discriminate. }
  eapply (G_flag c HA _ _ _ _ fOF _ (xorb (sf_of w a) (sf_of w r))); [|discriminate|].
  { eapply v_eq; [eapply v_cmp; [eapply v_bin; [var|var|reflexivity]|apply v_cI]|]. cbn [icmp_sem]. rewrite sf_lxor by (exact J0 || lia). reflexivity. }
  assert (YI : y_ip g' = y_ip g).
  { destruct MN as [M|[M|M]]; isx M E; destruct (k =? 0); injection E as <-; cbn [res_flags set_f y_ip]; apply wr_op_ip. }
  apply G_done; [|apply pcv_const; cbn [forget set_f y_ip]; rewrite YI; exact IP].
  unfold shift_lost. fold w a b k. destruct (k =? 0) eqn:QK.
  - assert (g' = wr_op g (x_op0 i) a) as -> by (destruct MN as [M|[M|M]]; isx M E; rewrite QK in E; injection E as <-; reflexivity). 
    assert (TR : trunc w r = trunc w a).
    { unfold r. apply Z.eqb_eq in QK. rewrite QK. change (2^0) with 1. destruct MN as [M|[M|M]]; rewrite M, ?Z.mul_1_r, ?Z.div_1_r; try reflexivity. apply trunc_S. lia. }
    destruct (wr_op_congr g (x_op0 i) r a W0 R0 TR) as (C1 & C2 & C3 & C4 & C5). repeat split; auto.
    intros f q. destruct f; cbn [forget set_f y_f existsb xflag_eqb orb set1]; try discriminate. auto.
  - assert (EG : g' = res_flags w r (match x_mn i with X_SHL => if k <? w then Some (Z.testbit a (w - k)) else None
         | X_SHR => if k <? w then Some (Z.testbit a (k - 1)) else None | _ => Some (Z.testbit (S_ w a) (k - 1)) end)
       (if k =? 1 then match x_mn i with X_SHL => Some (xorb (sf_of w r) (Z.testbit a (w - k))) | X_SHR => Some (sf_of w a) | _ => Some false end else None)
       (wr_op g (x_op0 i) r)).
    { unfold r. destruct MN as [M|[M|M]]; rewrite ?M; isx M E; rewrite QK in E; injection E as <-; reflexivity. }
    rewrite EG. repeat split; auto. intros f q. destruct f; cbn [forget set_f y_f existsb xflag_eqb orb set1 res_flags]; try discriminate; auto.
    + unfold cfv, x. destruct MN as [M|[M|M]]; rewrite M.
      * destruct (k <? w) eqn:Q; [|discriminate]. replace ((0 <=? w - k) && (w - k <? wx)) with true by lia. auto.
      * destruct (k <? w); [auto|discriminate].
      * rewrite trunc_low_bits by lia. auto.
    + destruct (k =? 1) eqn:Q1; [|discriminate]. apply Z.eqb_eq in Q1. unfold r. rewrite Q1. change (2^1) with 2. destruct MN as [M|[M|M]]; rewrite M.
      * rewrite (sf_testbit w a) by lia. rewrite xorb_comm. auto.
      * replace (sf_of w (a / 2)) with false; [rewrite xorb_false_r; auto|]. unfold sf_of. change U with trunc. pose proof (pow2_succ w ltac:(lia)). unfold inr in J0.
        rewrite trunc_small by (unfold inr; lia). lia.
      * rewrite sf_S by lia. rewrite xorb_nilpotent. auto.
Qed.
Lemma L_ROT : x_mn i = X_ROL \/ x_mn i = X_ROR -> ok [fCF; fOF] (LiftRotate c cfg kc i).
Proof.
  intros MN. assert (S3 : op_rm (x_op0 i) = true /\ op_val (x_op1 i) = true /\ op_bits (x_op1 i) = 8).
  { destruct MN as [MN|MN]; shp MN; (split; [side|split; [side|lia]]). }
  destruct S3 as (R0 & V1 & B8). opv (x_op0 i) V0 J0 B0. pose proof (rdi g _ W1 V1) as J1. rewrite B8 in J1. pose proof (op_bits_ok _ W0 V0) as OW.
  intros g' vs E. unfold LiftRotate. set (w := op_bits (x_op0 i)) in *.
  set (a := rd_op g (x_op0 i)) in *. set (b := rd_op g (x_op1 i)) in *. set (k := cmask w b).
  set (r := match x_mn i with X_ROL => rotl w a k | _ => rotr w a k end).
  ld. ld. cbn [app]. rewrite B8. fold w a b.
  eapply G_let with (v := V (TInt w) k).
  { eapply v_bin; [eapply v_zext; [var|lia]|apply v_cI|]. cbn [ibin]. f_equal. apply mask_val; [exact OW|lia|exact J1|auto]. }
  eapply G_let with (v := V (TInt w) (trunc w r)).
  { eapply v_eq; [eapply v_fsh; [var|var|var]|]. unfold r. destruct MN as [M|M]; rewrite M; [apply fshl_rot|apply fshr_rot]; assumption || lia. }
  stv r. { var. } nilr. change [OF; CF] with (map cell [fOF; fCF]). apply G_undef.
  assert (YI : y_ip g' = y_ip g).
  { destruct MN as [M|M]; isx M E;  destruct (k =? 0); injection E as <-; cbn [set1 set_f y_ip]; apply wr_op_ip. }
  apply G_done; [|apply pcv_const; cbn [forget set_f y_ip]; rewrite YI; exact IP].
  assert (GE : exists v, trunc w r = trunc w v /\ y_r g' = y_r (wr_op g (x_op0 i) v) /\ y_m g' = y_m (wr_op g (x_op0 i) v) /\ y_fs g' = y_fs g /\ y_gs g' = y_gs g /\
     (forall f q, y_f (forget [fCF; fOF] g') f = Some q -> y_f (forget [fOF; fCF] g) f = Some q)).
  { assert (YF : forall v, y_f (wr_op g (x_op0 i) v) = y_f g) by (intros; unfold wr_op; apply wr_loc_f).
    assert (YFS : forall v, y_fs (wr_op g (x_op0 i) v) = y_fs g /\ y_gs (wr_op g (x_op0 i) v) = y_gs g).
    { intros. destruct (wr_op_congr g (x_op0 i) v v W0 R0 eq_refl) as (_ & _ & C3 & C4 & _). destruct (x_op0 i) as [|? h ?| | |]; try (split; reflexivity). destruct h; split; reflexivity. }
    destruct (k =? 0) eqn:QK.
    - exists a. assert (g' = wr_op g (x_op0 i) a) as -> by (destruct MN as [M|M]; isx M E; rewrite QK in E; injection E as <-; reflexivity).
      split; [|split; [reflexivity|split; [reflexivity|split; [apply YFS|split; [apply YFS|]]]]].
      + apply Z.eqb_eq in QK. unfold r, rotr. rewrite QK. change (- 0) with 0. replace (rotl w a 0) with a; [destruct MN as [M|M]; rewrite M; reflexivity|].
        unfold rotl. change U with trunc. rewrite (trunc_small w a) by exact J0. rewrite Z.mod_0_l by lia. rewrite Z.sub_0_r. change (2^0) with 1. rewrite Z.div_small by exact J0. lia.
      + intros f q. unfold forget. cbn [set_f y_f]. rewrite YF. destruct f; cbn; auto.
    - exists r. split; [reflexivity|]. unfold r. destruct MN as [M|M]; rewrite ?M; isx M E; rewrite QK in E; injection E as <-;
      (split; [reflexivity|split; [reflexivity|split; [apply YFS|split; [apply YFS|]]]]); intros f q; unfold forget; cbn [set_f y_f set1]; rewrite YF; destruct f; cbn; auto. }
  destruct GE as (v & T & GR & GM & GF & GG & GFl). destruct (wr_op_congr g (x_op0 i) r v W0 R0 T) as (C1 & C2 & C3 & C4 & C5).
  repeat split.
  - intros n N. cbn [forget set_f y_r]. rewrite GR. auto.
  - intros f q Q. apply GFl in Q. revert Q. unfold forget. cbn [set_f y_f]. unfold wr_op. rewrite wr_loc_f. auto.
  - cbn [forget set_f y_fs]. rewrite GF. destruct (x_op0 i) as [|? h ?| | |]; try reflexivity. destruct h; reflexivity.
  - cbn [forget set_f y_gs]. rewrite GG. destruct (x_op0 i) as [|? h ?| | |]; try reflexivity. destruct h; reflexivity.
  - intros x. cbn [forget set_f y_m]. rewrite GM. auto.
Qed.
(** SHLD/SHRD: the 16-bit forms with a count of exactly 16 are excluded (see the refutation). *)
Lemma L_SHD : x_mn i = X_SHLD \/ x_mn i = X_SHRD -> cmask (op_bits (x_op0 i)) (rd_op g (x_op2 i)) <> op_bits (x_op0 i) ->
  ok ([fCF; fOF] ++ shift_lost (cmask (op_bits (x_op0 i)) (rd_op g (x_op2 i)))) (LiftShiftdouble c cfg kc i).
Proof.
  intros MN NW. assert (S3 : op_rm (x_op0 i) = true /\ op_val (x_op1 i) = true /\ op_bits (x_op1 i) = op_bits (x_op0 i) /\ op_val (x_op2 i) = true /\ op_bits (x_op2 i) = 8 /\ 16 <= op_bits (x_op0 i)).
  { destruct MN as [MN|MN]; shp MN; (split; [side|split; [side|split; [lia|split; [side|split; lia]]]]). }
  destruct S3 as (R0 & V1 & BB & V2 & B8 & W16). opv (x_op0 i) V0 J0 B0. pose proof (rdi g _ W1 V1) as J1. pose proof (rdi g _ W2 V2) as J2. rewrite BB in J1. rewrite B8 in J2. pose proof (op_bits_ok _ W0 V0) as OW.
  intros g' vs E. unfold LiftShiftdouble. set (w := op_bits (x_op0 i)) in *.
  set (a := rd_op g (x_op0 i)) in *. set (b := rd_op g (x_op1 i)) in *. set (n := rd_op g (x_op2 i)) in *. set (k := cmask w n) in *.
  set (r := match x_mn i with X_SHLD => a * 2^k + b / 2^(w - k) | _ => a / 2^k + b * 2^(w - k) end).
  assert (K0 : 0 <= k) by (pose proof (cmask_range w n OW); lia).
  assert (KW : k < w).
  { destruct (w <? k) eqn:Q; [|lia]. exfalso. destruct MN as [M|M]; isx M E; (destruct (k =? 0) eqn:Q0; [lia|]); rewrite Q in E; discriminate. }
  ld. ld. ld. cbn [app]. rewrite B8, BB. fold w a b n.
  eapply G_let with (v := V (TInt w) k).
  { eapply v_bin; [eapply v_zext; [var|lia]|apply v_cI|]. cbn [ibin]. f_equal. apply mask_val; [exact OW|lia|exact J2|auto]. }
  eapply G_let with (v := V (TInt w) (trunc w r)).
  { unfold r. destruct MN as [M|M]; rewrite M.
    - eapply v_eq; [eapply v_fsh; [var|var|var]|]. apply shld_val; assumption || lia.
    - eapply v_eq; [eapply v_fsh; [var|var|var]|]. apply shrd_val; assumption || lia. }
  stv r. { var. } 
  eapply (G_zf c HA _ _ _ _ w _ r); [var|lia|]. eapply (G_sap c HA _ _ _ _ w _ r); [svar|lia|].
  nilr. change [OF; CF] with (map cell [fOF; fCF]). apply G_undef.
  assert (YF : forall v, y_f (wr_op g (x_op0 i) v) = y_f g) by (intros; unfold wr_op; apply wr_loc_f).
  destruct (k =? 0) eqn:QK.
  - assert (g' = wr_op g (x_op0 i) a) as ->.
    { destruct MN as [M|M]; isx M E; rewrite QK in E; injection E as <-; reflexivity. }
    apply G_done; [|apply pcv_const; cbn [forget set_f y_ip]; rewrite wr_op_ip; exact IP].
    assert (TR : trunc w r = trunc w a).
    { apply Z.eqb_eq in QK. unfold r. rewrite QK, Z.sub_0_r. change (2^0) with 1. destruct MN as [M|M]; rewrite M.
      - rewrite Z.div_small by exact J1. f_equal. lia.
      - rewrite Z.div_1_r. rewrite <- trunc_add_r by lia. replace (trunc w (b * 2^w)) with 0; [f_equal; lia|]. unfold trunc. symmetry. apply Z.mod_mul. pose proof (pow2_pos w ltac:(lia)). lia. }
    destruct (wr_op_congr g (x_op0 i) r a W0 R0 TR) as (C1 & C2 & C3 & C4 & C5). repeat split; auto.
    unfold shift_lost. rewrite QK. intros f q. destruct f; cbn [app forget set_f y_f existsb xflag_eqb orb set1]; try discriminate. auto.
  - assert (GE : exists cf o, g' = res_flags w r cf o (wr_op g (x_op0 i) r)).
    { unfold r. destruct MN as [M|M]; rewrite ?M; isx M E; rewrite QK in E; replace (w <? k) with false in E by lia; injection E as <-; do 2 eexists; reflexivity. }
    destruct GE as (cf & o & ->).
    apply G_done; [|apply pcv_const; cbn [forget res_flags set_f y_ip]; rewrite wr_op_ip; exact IP].
    unfold shift_lost. rewrite QK. repeat split; auto. intros f q. destruct f; cbn [app forget set_f y_f existsb xflag_eqb orb set1 res_flags]; try discriminate; auto.
Qed.
End Gp.
