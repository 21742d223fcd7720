(** Bit instructions. *)

From Coq Require Import ZArith Lia ZifyBool List Bool.
From Verif Require Import Bits IR Facet Dsl Rv64 Rv64Spec Rv64Sim Rv64Arith Rv64Int X86 X86Spec X86Arith X86Sim X86Ops X86Gp X86Gp2 X86Gp3 X86Gp4 X86Gp5.
Import ListNotations.
Open Scope Z_scope.
Ltac Zify.zify_post_hook ::= Z.div_mod_to_equations.

Ltac gle_flags := repeat split; auto; let f := fresh in let b := fresh in intros f b; destruct f; cbn; auto.
Lemma okw_pow : forall w, okw w = true -> w = 2 ^ Z.log2 w.
Proof. intros w O. unfold okw in O. assert (w = 8 \/ w = 16 \/ w = 32 \/ w = 64) as [->|[->|[->| ->]]] by lia; reflexivity. Qed.
Lemma okw_log : forall w, okw w = true -> 3 <= Z.log2 w <= 6 /\ Z.log2 w < w.
Proof. intros w O. unfold okw in O. assert (w = 8 \/ w = 16 \/ w = 32 \/ w = 64) as [->|[->|[->| ->]]] by lia; vm_compute; repeat split; discriminate || reflexivity. Qed.
Lemma land_w : forall w b, okw w = true -> Z.land b (w - 1) = b mod w.
Proof. intros w b O. rewrite (okw_pow w O). apply land_mask. pose proof (okw_log w O). lia. Qed.
Lemma bit_ne : forall v k, 0 <= k -> negb (Z.land v (2 ^ k) =? 0) = Z.testbit v k.
Proof.
  intros v k K. destruct (Z.testbit v k) eqn:T.
  - destruct (Z.eqb_spec (Z.land v (2 ^ k)) 0) as [Q|Q]; [|reflexivity]. exfalso. assert (Z.testbit (Z.land v (2 ^ k)) k = true) by (rewrite Z.land_spec, T, Z.pow2_bits_true by lia; reflexivity).
    rewrite Q, Z.bits_0 in H. discriminate.
  - replace (Z.land v (2 ^ k)) with 0; [reflexivity|]. symmetry. apply Z.bits_inj'. intros n N. rewrite Z.land_spec, Z.bits_0.
    destruct (Z.eq_dec n k) as [->|D]; [rewrite T; reflexivity|]. rewrite Z.pow2_bits_false by lia. apply andb_false_r.
Qed.
Lemma bt_addr : forall w a b, okw w = true -> inr w b ->
  trunc 64 (a + trunc 64 (sgn w (trunc w (Z.shiftr (sgn w b) (Z.log2 w)))) * (w / 8)) = trunc 64 (a + (S_ w b / w) * (w / 8)).
Proof.
  intros w a b O B. pose proof (okw_log w O) as L. assert (8 <= w) by (unfold okw in O; lia).
  rewrite sgn_trunc_id.
  - rewrite Z.shiftr_div_pow2, <- okw_pow, <- S_small by (assumption || lia). rewrite <- trunc_add_r, trunc_mul_l, trunc_add_r by lia. reflexivity.
  - lia.
  - pose proof (sgn_range w b ltac:(lia) B) as R. rewrite Z.shiftr_div_pow2 by lia. pose proof (pow2_pos (Z.log2 w) ltac:(lia)).
    split; [apply Z.div_le_lower_bound; nia|apply Z.div_lt_upper_bound; nia].
Qed.
Lemma ctz_nz : forall n a, inr (Z.of_nat n) a -> a <> 0 -> ctz n a < Z.of_nat n.
Proof.
  induction n; intros a A Z0.
  - unfold inr in A. change (Z.of_nat 0) with 0 in A. change (2 ^ 0) with 1 in A. lia.
  - cbn [ctz]. destruct (Z.odd a) eqn:O; [lia|]. assert (EV : a = 2 * (a / 2)). { rewrite (Z.div_mod a 2) at 1 by lia. rewrite Zmod_odd, O. lia. }
    specialize (IHn (a / 2)). rewrite Nat2Z.inj_succ in *. unfold inr in *. rewrite Z.pow_succ_r in A by lia.
    assert (ctz n (a / 2) < Z.of_nat n) by (apply IHn; lia). lia.
Qed.

Section Gp.
Context `{FpuOps}.
Variable c : cenv.
Variable cfg : xcfg.
Hypothesis HA : c_arch c = X86_64.
Hypothesis GB : gbase_ok c.
Notation G := (G c).
Notation vals := (vals c).
Notation done := (done c).
Variables (kc kcp : areg -> konst) (i : xinst) (g : xst) (rt : bool).
Hypothesis IP : y_ip g = addr_pc_base c (x_end i).
Hypothesis W0 : wf_op (x_op0 i) = true.
Hypothesis W1 : wf_op (x_op1 i) = true.
Hypothesis W2 : wf_op (x_op2 i) = true.
Hypothesis O0 : good_op cfg (x_op0 i) = true.
Hypothesis O1 : good_op cfg (x_op1 i) = true.
Hypothesis O2 : good_op cfg (x_op2 i) = true.
Hypothesis KC : xkc_sound kc g.
Hypothesis SH : shape_ok i = true.
Hypothesis LK : x_lock i = true -> op_ismem (x_op0 i) = true.
Hypothesis LB : x_lock i = true -> lockable (x_mn i) = true.
Notation p := (PcConst (x_end i)).
Notation ok := (ok c i g rt).

Ltac shp MN := unfold shape_ok in SH; rewrite MN in SH; cbv zeta beta iota in SH;
  repeat match goal with H : _ && _ = true |- _ => apply andb_prop in H; destruct H end.
Ltac side := match goal with
  | |- _ = addr_pc_base _ _ => first [exact IP | rewrite ?wr_op_ip, ?wr_loc_ip; exact IP]
  | |- xkc_sound _ _ => exact KC
  | |- op_val _ = true => first [assumption | apply op_rm_val; assumption | apply op_rm_val, op_isreg_rm; assumption]
  | |- op_rm _ = true => first [assumption | apply op_isreg_rm; assumption | apply op_ismem_rm; auto]
  | |- _ => first [assumption | reflexivity | lia]
  end.
Ltac ld := eapply G_OpLoad; [exact GB|side|side|side|side|side|].
Ltac nilr := match goal with |- X86Sim.G _ _ _ _ _ ?l _ => rewrite <- (app_nil_r l) end.
Ltac stv x := unfold OpStoreGp; eapply G_OpStore with (v := x); [assumption|exact GB|side|side|side|side|side|side| |].
Ltac fin := apply G_done; [|apply pcv_const; cbn [y_ip forget set_f set1]; rewrite ?wr_op_ip; exact IP].
Ltac var := apply v_var; reflexivity.
Ltac svar := apply sv_var; [reflexivity|discriminate].
Ltac isa MN := intros g' vs E; unfold isa in E; rewrite MN in E; cbv zeta beta iota in E.
Ltac okn := apply ok_nil.

Ltac shq := repeat match goal with H : _ && _ = true |- _ => apply andb_prop in H; destruct H end.
Ltac opv o V I B := assert (V : op_val o = true) by side;
  lazymatch o with
  | x_op0 _ => pose proof (rdi g _ W0 V) as I; pose proof (bitsok _ W0 V) as B
  | x_op1 _ => pose proof (rdi g _ W1 V) as I; pose proof (bitsok _ W1 V) as B
  | x_op2 _ => pose proof (rdi g _ W2 V) as I; pose proof (bitsok _ W2 V) as B
  end.
Lemma v_intr1P : forall g0 p0 vs k a w x, vals g0 p0 vs a (V (TInt w) x) -> intr1_sem k w x = IR.IP -> vals g0 p0 vs (E1 (OIntr1 k) a) (Poison (TInt w)).
Proof.
  intros g0 p0 vs k a w x A P s rt' At_. unfold ev. cbn [eval]. pose proof (A s rt' At_) as EA. unfold ev in EA. rewrite EA. cbn [bind sem1 intr1_rv int_shape]. rewrite P. reflexivity.
Qed.
Lemma v_subP : forall g0 p0 vs a b w x, vals g0 p0 vs a (V (TInt w) x) -> vals g0 p0 vs b (Poison (TInt w)) -> vals g0 p0 vs (eSub a b) (Poison (TInt w)).
Proof.
  intros g0 p0 vs a b w x A B s rt' At_. unfold ev, eSub, eBin. cbn [eval]. pose proof (A s rt' At_) as EA. pose proof (B s rt' At_) as EB. unfold ev in EA, EB. rewrite EA, EB.
  cbn [bind sem2]. unfold bin_sem, same2. cbn [ty_of]. rewrite ty_eqb_refl. reflexivity.
Qed.
Lemma G_post : forall g0 p0 vs rt0 l (Q Q' : st -> Prop), (forall s, Q s -> Q' s) -> G g0 p0 vs rt0 l Q -> G g0 p0 vs rt0 l Q'.
Proof. intros g0 p0 vs rt0 l Q Q' K A s At_. destruct (A s At_) as (s' & R & q). exists s'. auto. Qed.
Lemma done_gle : forall g0 g1 s, gle g0 g1 -> y_ip g0 = y_ip g1 -> done g0 rt s -> done g1 rt s.
Proof. intros g0 g1 s L E (R & P & T). split; [eapply xrel_gle; eassumption|]. rewrite <- E. split; assumption. Qed.
(** BSF and BSR (and TZCNT of a nonzero source). *)
Lemma L_BITSCAN : forall (tr : bool) z,
  op_isreg (x_op0 i) = true -> op_rm (x_op1 i) = true -> op_bits (x_op1 i) = op_bits (x_op0 i) -> 16 <= op_bits (x_op0 i) ->
  z = (let b := rd_op g (x_op1 i) in let w := op_bits (x_op1 i) in if tr then ctz (Z.to_nat w) b else msb w b) ->
  forall vs, G g p vs rt (LiftBitscan c cfg kc i tr)
    (done (set1 (forget [fCF; fOF; fSF; fAF; fPF] (if rd_op g (x_op1 i) =? 0 then g else wr_op g (x_op0 i) z)) fZF (Some (rd_op g (x_op1 i) =? 0))) rt).
Proof.
  intros tr z R0 R1 BB W16 EZ vs. apply G_rng. intros RG. opv (x_op1 i) V1 J1 B1. pose proof (op_bits_ok _ W1 V1) as OW.
  unfold LiftBitscan. rewrite BB in *. set (w := op_bits (x_op0 i)) in *. set (b := rd_op g (x_op1 i)) in *. cbv zeta in EZ.
  destruct (x_op0 i) as [|w0 hi r| | |] eqn:OP; try discriminate. subst w. cbn [op_bits] in *. cbn [wf_op] in W0. destruct hi; [lia|]. assert (RR : 0 <= r < 16) by (unfold okr in W0; lia).
  assert (WN : w0 = 16 \/ w0 = 32 \/ w0 = 64) by (unfold okw in OW; lia).
  unfold OpLoad at 1, OpLoadSeg. cbn [op_bits app MapReg].
  set (old := if w0 =? 16 then U 16 (y_r g r) else y_r g r). set (wl := if w0 =? 16 then 16 else 64).
  eapply G_let with (v := V (TInt wl) old).
  { unfold old, wl. destruct WN as [->|[->| ->]]; cbn [Z.eqb Pos.eqb facet_Resolve facet_eqb andb]; [apply (v_gp c _ _ _ r 16); [lia|reflexivity]|apply (v_gp64 c); lia|apply (v_gp64 c); lia]. }
  ld. fold b. rewrite BB. cbn [app].
  assert (CZ : b <> 0 -> 0 <= z < w0 /\ z = (if tr then ctz (Z.to_nat w0) b else w0 - 1 - clz (Z.to_nat w0) b)).
  { intros NZ. rewrite EZ. destruct tr; [|unfold msb].
    - pose proof (ctz_range (Z.to_nat w0) b) as CR. pose proof (ctz_nz (Z.to_nat w0) b) as CN. rewrite Z2Nat.id in * by lia. specialize (CN J1 NZ). split; [lia|reflexivity].
    - split; [|reflexivity]. rewrite clz_high by (rewrite Z2Nat.id by lia; exact J1). rewrite Z2Nat.id by lia. replace (b =? 0) with false by lia. unfold inr in J1.
      assert (0 < b) by lia. pose proof (Z.log2_nonneg b). assert (Z.log2 b < w0) by (apply Z.log2_lt_pow2; lia). lia. }
  assert (PW : w0 < 2 ^ w0) by (apply Z.pow_gt_lin_r; lia).
  eapply G_let with (v := if b =? 0 then Poison (TInt w0) else V (TInt w0) z).
  { destruct (b =? 0) eqn:QB.
    - assert (IPo : vals g p (upd_var (upd_var vs 1 (V (TInt wl) old)) 2 (V (TInt w0) b)) (E1 (OIntr1 (if tr then Cttz true else Ctlz true)) (vX 2)) (Poison (TInt w0))).
      { eapply v_intr1P; [var|]. destruct tr; cbn [intr1_sem]; rewrite QB; reflexivity. }
      destruct tr; [exact IPo|]. eapply v_subP; [apply v_cI|exact IPo].
    - destruct (CZ ltac:(lia)) as [ZR ZE]. destruct tr.
      + eapply v_intr1; [var|]. pose proof (cttz_ok (Z.to_nat w0) b) as C. rewrite Z2Nat.id in C by lia. cbn [intr1_sem] in *. rewrite QB in *. rewrite C, ZE. reflexivity.
      + eapply v_bin; [apply v_cI|eapply v_intr1; [var|]|].
        * pose proof (ctlz_ok (Z.to_nat w0) b) as C. rewrite Z2Nat.id in C by lia. cbn [intr1_sem] in *. rewrite QB in *. apply C. exact J1.
        * cbn [ibin]. rewrite trunc_small with (z := w0 - 1) by (unfold inr; lia). rewrite <- ZE. rewrite trunc_small by (unfold inr; lia). reflexivity. }
  eapply G_let with (v := V (TInt 1) (b2z (b =? 0))).
  { eapply v_eq; [eapply v_cmp; [var|apply v_cI]|]. cbn [icmp_sem]. rewrite trunc_small with (z := 0) by (unfold inr; lia). reflexivity. }
  assert (TL : forall gx vs1, vs1 4%nat = Some (V (TInt 1) (b2z (b =? 0))) -> y_ip gx = y_ip g -> gle gx (if b =? 0 then g else wr_op g (XReg w0 false r) z) ->
    G gx p vs1 rt ([SSet ZF (vX 4)] ++ SetFlagUndef [OF; SF; AF; PF; CF]) (done (set1 (forget [fCF; fOF; fSF; fAF; fPF] (if b =? 0 then g else wr_op g (XReg w0 false r) z)) fZF (Some (b =? 0))) rt)).
  { intros gx vs1 V4 IPx (C1 & C2 & C3 & C4 & C5). cbn [app]. eapply (G_flag c HA _ _ _ _ fZF); [apply v_var; exact V4|discriminate|].
    nilr. change [OF; SF; AF; PF; CF] with (map cell [fOF; fSF; fAF; fPF; fCF]). apply G_undef.
    apply G_done; [|apply pcv_const; destruct (b =? 0); exact IP]. repeat split; auto.
    intros f q. destruct f; cbn [set1 set_f forget y_f existsb xflag_eqb orb]; auto. }
  destruct (w0 =? 32) eqn:Q32.
  - apply Z.eqb_eq in Q32. cbn [app MapReg]. unfold wl, old in *. clear BB. subst w0. cbn [Z.eqb Pos.eqb] in *.
    eapply (G_wreg64 c HA _ _ _ _ r _ (if b =? 0 then y_r g r else z)); [|lia|].
    { left. destruct (b =? 0) eqn:QB.
      - eapply v_sel_l with (t := Poison (TInt 64)); [var|var| |reflexivity]. intros s rt' At_. unfold ev, eZExt. cbn [eval]. pose proof (v_var c g p _ 3%nat (Poison (TInt 32)) eq_refl s rt' At_) as EV. unfold ev, vX in EV |- *. rewrite EV. reflexivity.
      - eapply v_sel_r with (t := V (TInt 64) (y_r g r)); [var|eapply v_zext; [var|lia]|var|reflexivity]. }
    apply TL; [reflexivity|reflexivity|]. destruct (b =? 0) eqn:QB.
    + repeat split; auto. intros n N. cbn [wr_reg set_r y_r]. destruct (n =? r) eqn:Qn; [|reflexivity]. apply Z.eqb_eq in Qn. subst n.
      unfold reg_merge. cbn [Z.eqb Pos.eqb]. change U with trunc. apply trunc_small. apply RG. lia.
    + destruct (CZ ltac:(lia)) as [ZR _]. repeat split; auto. intros n N. unfold wr_op, loc_of, wr_loc. cbn [wr_reg set_r y_r]. destruct (n =? r); [|reflexivity].
      unfold reg_merge. cbn [Z.eqb Pos.eqb]. change U with trunc. rewrite !trunc_small by (unfold inr; lia). reflexivity.
  - assert (WL : wl = w0) by (unfold wl; destruct WN as [->|[->| ->]]; reflexivity || discriminate).
    assert (OE : old = U w0 (y_r g r)). { unfold old. destruct WN as [->|[->| ->]]; try reflexivity; [discriminate|]. cbn [Z.eqb Pos.eqb]. symmetry. apply trunc_small. apply RG. lia. }
    unfold OpStoreGp. eapply G_OpStoreR with (v := if b =? 0 then old else z); [exact HA|cbn [wf_op]; exact W0|reflexivity|reflexivity| |].
    { destruct (b =? 0) eqn:QB.
      - rewrite OE. change U with trunc. rewrite trunc_trunc by lia. change trunc with U. rewrite <- OE. rewrite <- WL. eapply v_sel_l with (t := Poison (TInt wl)); [var|var|rewrite WL; var|reflexivity].
      - destruct (CZ ltac:(lia)) as [ZR _]. rewrite trunc_small by (unfold inr; lia). eapply v_sel_r with (t := V (TInt wl) old); [var|var|var|cbn [ty_of]; rewrite WL; reflexivity]. }
    apply TL; [reflexivity|reflexivity|]. destruct (b =? 0) eqn:QB; [|apply gle_refl].
    repeat split; auto. intros n N. unfold wr_op, loc_of, wr_loc. cbn [wr_reg set_r y_r]. destruct (n =? r) eqn:Qn; [|reflexivity]. apply Z.eqb_eq in Qn. subst n.
    rewrite OE. apply merge_self; [exact OW|apply RG; lia|lia].
Qed.
Lemma L_BSF : x_mn i = X_BSF -> ok [] (LiftBitscan c cfg kc i true).
Proof. intros MN. shp MN. okn. isa MN. injection E as <-. apply L_BITSCAN; try assumption; try lia. reflexivity. Qed.
Lemma L_BSR : x_mn i = X_BSR -> ok [] (LiftBitscan c cfg kc i false).
Proof. intros MN. shp MN. okn. isa MN. injection E as <-. apply L_BITSCAN; try assumption; try lia. reflexivity. Qed.
(** TZCNT: only for a nonzero source, and not for ZF and CF. *)
Lemma L_TZCNT : x_mn i = X_TZCNT -> rd_op g (x_op1 i) <> 0 -> ok [fZF; fCF] (LiftBitscan c cfg kc i true).
Proof.
  intros MN NZ. shp MN. isa MN. injection E as <-. eapply G_post; [|apply L_BITSCAN with (z := ctz (Z.to_nat (op_bits (x_op1 i))) (rd_op g (x_op1 i))); try assumption; try lia; reflexivity].
  intros s D. replace (rd_op g (x_op1 i) =? 0) with false in D by lia. revert D. apply done_gle; [|reflexivity].
  repeat split; auto. intros f b. destruct f; cbn; auto; discriminate.
Qed.
Lemma L_POPCNT : x_mn i = X_POPCNT -> ok [] (LiftPopcnt c cfg kc i).
Proof.
  intros MN. shp MN. okn. isa MN. injection E as <-. assert (BB : op_bits (x_op1 i) = op_bits (x_op0 i)) by lia. opv (x_op1 i) V1 J1 B1. pose proof (op_bits_ok _ W1 V1) as OW.
  unfold LiftPopcnt. rewrite BB in *. set (w := op_bits (x_op0 i)) in *. set (b := rd_op g (x_op1 i)) in *.
  ld. rewrite BB. fold b.
  assert (PC : inr w (cpop (Z.to_nat w) b)).
  { rewrite <- popcount_cpop. pose proof (popcount_nat_range (Z.to_nat w) b) as R. rewrite Z2Nat.id in R by lia. assert (w < 2 ^ w) by (apply Z.pow_gt_lin_r; lia). unfold inr. lia. }
  stv (cpop (Z.to_nat w) b).
  { eapply v_intr1; [var|]. cbn [intr1_sem]. unfold popcount. rewrite popcount_cpop. rewrite trunc_small by exact PC. reflexivity. }
  eapply (G_zf c HA _ _ _ _ w _ b); [apply v_var; rewrite (trunc_small w b) by exact J1; reflexivity|lia|].
  eapply (G_flag c HA _ _ _ _ fOF _ false); [apply v_cI|discriminate|].
  eapply (G_flag c HA _ _ _ _ fSF _ false); [apply v_cI|discriminate|].
  eapply (G_flag c HA _ _ _ _ fAF _ false); [apply v_cI|discriminate|].
  eapply (G_pf c HA _ _ _ _ _ _ _ false); [apply v_cI|reflexivity|].
  eapply (G_flag c HA _ _ _ _ fCF _ false); [apply v_cI|discriminate|].
  apply G_done; [|apply pcv_const; cbn [set_f y_ip]; rewrite wr_op_ip; exact IP].
  repeat split; auto. intros f q. destruct f; cbn; auto.
  - unfold zf_of. change U with trunc. rewrite trunc_small by exact J1. auto.
  - unfold wr_op. rewrite wr_loc_f. auto.
Qed.

(** x86-64/lifter.cc:145-148: arguments of LiftBittest. *)
Definition bt_op (m : xmn) : binop := match m with X_BTC => Xor | X_BTR => And | _ => Or end.
Definition bt_rmw (m : xmn) : rmwop := match m with X_BTC => RXor | X_BTR => RAnd | _ => ROr end.
Definition is_bt (m : xmn) : bool := match m with X_BT | X_BTC | X_BTR | X_BTS => true | _ => false end.
Lemma L_BITTEST : is_bt (x_mn i) = true -> ok [] (LiftBittest c cfg kc i (bt_op (x_mn i)) (bt_rmw (x_mn i))).
Proof.
  intros MN. set (w := op_bits (x_op0 i)) in *.
  assert (S3 : op_rm (x_op0 i) = true /\ 16 <= w /\ match x_op1 i with XReg _ _ _ => op_bits (x_op1 i) = w | XImm _ _ => op_bits (x_op1 i) = 8 | _ => False end).
  { unfold shape_ok in SH. fold w in SH. destruct (x_mn i); try discriminate; shq; (split; [assumption|split; [lia|destruct (x_op1 i); try discriminate; lia]]). }
  destruct S3 as (R0 & W16 & R1). assert (V1 : op_val (x_op1 i) = true) by (destruct (x_op1 i); try contradiction; reflexivity).
  okn. intros g' vs E. opv (x_op0 i) V0 J0 B0. fold w in J0, B0. pose proof (rdi g _ W1 V1) as J1. pose proof (op_bits_ok _ W0 V0) as OW. fold w in OW.
  pose proof (okw_pow w OW) as PWL. pose proof (okw_log w OW) as LG.
  unfold LiftBittest. fold w. set (w1 := op_bits (x_op1 i)) in *. set (b := rd_op g (x_op1 i)) in *. set (k := b mod w).
  assert (KR : 0 <= k < w) by (apply Z.mod_pos_bound; lia).
  set (l0 := match x_op0 i with XMem _ m => LMem w (U 64 (ea g m + (if op_isreg (x_op1 i) then (S_ w1 b / w) * (w / 8) else 0))) | _ => loc_of g (x_op0 i) end).
  set (v := rd_loc g l0). set (bit := Z.testbit v k).
  set (nv := match x_mn i with X_BTS => if bit then v else v + 2^k | X_BTR => if bit then v - 2^k else v | _ => if bit then v - 2^k else v + 2^k end).
  set (g1 := match x_mn i with X_BT => g | _ => wr_loc g l0 nv end).
  assert (EG : g' = set1 (forget [fOF; fSF; fAF; fPF] g1) fCF (Some bit)).
  { unfold isa in E. unfold g1, nv, bit, v, l0. destruct (x_mn i); try discriminate; cbv zeta beta iota in E; fold w in E; fold w1 in E; fold b in E; fold k in E;
    (match type of E with (if ?q then _ else _) = _ => destruct q; [discriminate|] end); injection E as <-; reflexivity. }
  clear E. subst g'.
  assert (JV : inr w v).
  { unfold v, l0. destruct (x_op0 i) as [|w0 hi r| | |w0 m] eqn:OP; try discriminate.
    - exact J0.
    - cbn [rd_loc]. pose proof (rd_mem_inr (bytes_of w) (y_m g) (U 64 (ea g m + (if op_isreg (x_op1 i) then S_ w1 b / w * (w / 8) else 0)))) as RI. rewrite okw_bytes in RI by exact OW. exact RI. }
  ld. fold w1 b.
  set (vs1 := upd_var vs 1 (V (TInt w1) b)).
  set (ad := match l0 with LMem _ a => a | _ => 0 end).
  assert (ST : forall l Q, (forall vs2, vs2 1%nat = Some (V (TInt w1) b) -> (op_ismem (x_op0 i) = true -> vs2 2%nat = Some (V TPtr ad)) -> G g p vs2 rt l Q) ->
    G g p vs1 rt ((match x_op0 i with
   | XMem _ m =>
     [SLet 2 (if op_isreg (x_op1 i)
              then eGep (w / 8) (OpAddr c cfg kc m 7) (eSExt 64 (eAShr (vX 1) (cI (op_bits (x_op1 i)) (Z.log2 w))))
              else OpAddr c cfg kc m 7)]
   | _ => []
   end) ++ l) Q).
  { intros l Q K. destruct (x_op0 i) as [|w0 hi r| | |w0 m] eqn:OP; try discriminate.
    - apply K; [reflexivity|discriminate].
    - cbn [app wf_op op_bits] in *. eapply G_let with (v := V TPtr ad); [|apply K; reflexivity].
      assert (AD : vals g p vs1 (OpAddr c cfg kc m 7) (V TPtr (ea g m))).
      { unfold OpAddr. eapply v_OpAddr; [exact GB|exact IP|bsp|exact KC|reflexivity|]. cbn [good_op] in O0. exact O0. }
      unfold ad, l0. destruct (op_isreg (x_op1 i)) eqn:RG.
      + assert (WW : w1 = w). { destruct (x_op1 i); try discriminate. exact R1. } rewrite WW in *. intros s rt' At_. change U with trunc. fold w1. rewrite WW.
        rewrite <- (bt_addr w (ea g m) b) by assumption.
        refine (v_gep c _ _ _ (w / 8) _ _ _ _ AD _ s rt' At_). eapply v_sext with (w := w); [|lia|].
        * eapply v_bin; [apply v_var; unfold vs1; rewrite ?WW; reflexivity|apply v_cI|]. cbn [ibin]. rewrite (trunc_small w (Z.log2 w)). 2: { unfold inr. assert (w < 2 ^ w) by (apply Z.pow_gt_lin_r; lia). lia. }
          replace (Z.log2 w <? w) with true by lia. reflexivity.
        * apply trunc_range. lia.
      + rewrite Z.add_0_r. replace (U 64 (ea g m)) with (ea g m); [exact AD|]. unfold ea. change U with trunc. symmetry. apply trunc_trunc. lia. }
  apply ST. clear ST. intros vs2 V1' V2'. cbn [app].
  eapply G_let with (v := V (TInt w) k).
  { eapply v_bin; [eapply v_zext; [apply v_var; exact V1'|]|apply v_cI|].
    - unfold w1. destruct (x_op1 i); try contradiction; fold w1; lia.
    - cbn [ibin]. rewrite (trunc_small w (w - 1)). 2: { unfold inr. assert (w < 2 ^ w) by (apply Z.pow_gt_lin_r; lia). lia. } rewrite land_w by exact OW. reflexivity. }
  assert (T1 : trunc w 1 = 1). { apply trunc_small. unfold inr. assert (w < 2 ^ w) by (apply Z.pow_gt_lin_r; lia). lia. }
  assert (PK : inr w (2 ^ k)). { unfold inr. split; [apply Z.pow_nonneg; lia|apply Z.pow_lt_mono_r; lia]. }
  eapply G_let with (v := V (TInt w) (2 ^ k)).
  { eapply v_bin; [apply v_cI|var|]. cbn [ibin]. replace (k <? w) with true by lia. rewrite T1, Z.shiftl_1_l. rewrite trunc_small by exact PK. reflexivity. }
  set (msk := match x_mn i with X_BTR => Z.lxor (2 ^ k) (trunc w (-1)) | _ => 2 ^ k end).
  eapply G_let with (v := V (TInt w) msk).
  { unfold msk. destruct (x_mn i); try discriminate; try var. eapply v_bin; [var|apply v_cI|reflexivity]. }
  assert (NV : x_mn i <> X_BT -> exists z, ibin (bt_op (x_mn i)) w v msk = IV z /\ rmw_sem (bt_rmw (x_mn i)) w v msk = z /\ z = nv).
  { intros NB. unfold nv, msk, bit. destruct (x_mn i); try discriminate; try (exfalso; apply NB; reflexivity); cbn [bt_op bt_rmw ibin rmw_sem]; (eexists; split; [reflexivity|split; [reflexivity|]]).
    - apply binv_val. lia.
    - apply bclr_val; [lia|exact JV].
    - apply bset_val. lia. }
  assert (TL : forall gx vs3, vs3 3%nat = Some (V (TInt w) (2 ^ k)) -> vs3 5%nat = Some (V (TInt w) v) -> y_ip gx = y_ip g -> gle gx g1 ->
    G gx p vs3 rt ([SSet CF (eCmp NE (eAnd (vX 5) (vX 3)) (cI w 0))] ++ SetFlagUndef [OF; SF; AF; PF]) (done (set1 (forget [fOF; fSF; fAF; fPF] g1) fCF (Some bit)) rt)).
  { intros gx vs3 V3 V5 IPx (C1 & C2 & C3 & C4 & C5). cbn [app]. eapply (G_flag c HA _ _ _ _ fCF _ bit); [|discriminate|].
    { eapply v_eq; [eapply v_cmp; [eapply v_bin; [apply v_var; exact V5|apply v_var; exact V3|reflexivity]|apply v_cI]|]. cbn [icmp_sem]. rewrite (trunc_small w 0) by (unfold inr; lia). unfold bit. rewrite bit_ne by lia. reflexivity. }
    nilr. change [OF; SF; AF; PF] with (map cell [fOF; fSF; fAF; fPF]). apply G_undef.
    assert (IG : y_ip g1 = y_ip g). { unfold g1. destruct (x_mn i); try reflexivity; apply wr_loc_ip. }
    apply G_done; [|apply pcv_const; cbn [set1 forget set_f y_ip]; rewrite IG; exact IP]. repeat split; auto.
    intros f q. destruct f; cbn [set1 set_f forget y_f existsb xflag_eqb orb]; auto. }
  set (vs3 := upd_var (upd_var (upd_var vs2 1 (V (TInt w) k)) 3 (V (TInt w) (2 ^ k))) 4 (V (TInt w) msk)).
  assert (NVI : x_mn i <> X_BT -> trunc w nv = nv).
  { intros NB. destruct (NV NB) as (z & Ez & _ & Zn). rewrite <- Zn. apply trunc_small. unfold bt_op, msk in Ez. destruct (x_mn i); try discriminate; try (exfalso; apply NB; reflexivity); cbn [ibin] in Ez; injection Ez as <-.
    - apply lxor_inr; [lia|exact JV|exact PK].
    - apply land_inr_l; [lia|exact JV].
    - apply lor_inr; [lia|exact JV|exact PK]. }
  assert (LV : l0 = match x_op0 i with XMem _ _ => LMem w ad | _ => loc_of g (x_op0 i) end) by (unfold ad, l0; destruct (x_op0 i); reflexivity).
  destruct (x_lock i) eqn:LCK.
  - assert (M0 : op_ismem (x_op0 i) = true) by auto. assert (NB : x_mn i <> X_BT) by (intro Q; specialize (LB eq_refl); rewrite Q in LB; discriminate).
    destruct (x_op0 i) as [|w0 hi r| | |w0 m] eqn:OP; try discriminate. destruct (NV NB) as (z & _ & Ez & Zn).
    eapply (G_rmw c _ _ _ _ 5%nat _ _ _ w msk ad); [apply v_var; cbn; apply V2'; reflexivity|var|exact OW|]. cbv zeta.
    assert (VE : v = rd_mem (y_m g) ad (bytes_of w)) by (unfold v; rewrite LV; reflexivity). rewrite <- VE. rewrite Ez, Zn.
    apply TL; [reflexivity|reflexivity|reflexivity|]. unfold g1. rewrite LV. destruct (x_mn i); try discriminate; try (exfalso; apply NB; reflexivity); apply gle_refl.
  - destruct (op_isreg (x_op0 i)) eqn:RG.
    + assert (VE : v = rd_op g (x_op0 i)) by (unfold v; rewrite LV; destruct (x_op0 i); try discriminate; reflexivity).
      rewrite <- app_assoc. ld. fold w. rewrite <- VE.
      destruct (x_mn i) eqn:MN'; try discriminate; cbn [app].
      * apply TL; try reflexivity. apply gle_refl.
      * stv nv. { destruct (NV ltac:(discriminate)) as (z & Ez & _ & Zn). rewrite NVI by discriminate. rewrite <- Zn. eapply v_bin; [var|var|exact Ez]. }
        apply TL; try reflexivity; [apply wr_op_ip|]. unfold g1, wr_op. rewrite LV. destruct (x_op0 i); try discriminate. apply gle_refl.
      * stv nv. { destruct (NV ltac:(discriminate)) as (z & Ez & _ & Zn). rewrite NVI by discriminate. rewrite <- Zn. eapply v_bin; [var|var|exact Ez]. }
        apply TL; try reflexivity; [apply wr_op_ip|]. unfold g1, wr_op. rewrite LV. destruct (x_op0 i); try discriminate. apply gle_refl.
      * stv nv. { destruct (NV ltac:(discriminate)) as (z & Ez & _ & Zn). rewrite NVI by discriminate. rewrite <- Zn. eapply v_bin; [var|var|exact Ez]. }
        apply TL; try reflexivity; [apply wr_op_ip|]. unfold g1, wr_op. rewrite LV. destruct (x_op0 i); try discriminate. apply gle_refl.
    + destruct (x_op0 i) as [|w0 hi r| | |w0 m] eqn:OP; try discriminate. cbn [app].
      assert (VE : v = rd_mem (y_m g) ad (bytes_of w)) by (unfold v; rewrite LV; reflexivity).
      eapply G_load with (a := ad). { apply v_var; cbn; apply V2'; reflexivity. }
      rewrite <- VE. unfold g1 in TL. rewrite LV in TL. cbn [wr_loc] in TL.
      destruct (x_mn i) eqn:MN'; try discriminate; cbn [app].
      * apply TL; try reflexivity. apply gle_refl.
      * destruct (NV ltac:(discriminate)) as (z & Ez & _ & Zn). eapply (G_store c _ _ _ _ _ w nv nv _ ad); [rewrite <- Zn; eapply v_bin; [var|var|exact Ez]|apply v_var; cbn; apply V2'; reflexivity|exact OW|symmetry; apply NVI; discriminate|].
        apply TL; try reflexivity. apply gle_refl.
      * destruct (NV ltac:(discriminate)) as (z & Ez & _ & Zn). eapply (G_store c _ _ _ _ _ w nv nv _ ad); [rewrite <- Zn; eapply v_bin; [var|var|exact Ez]|apply v_var; cbn; apply V2'; reflexivity|exact OW|symmetry; apply NVI; discriminate|].
        apply TL; try reflexivity. apply gle_refl.
      * destruct (NV ltac:(discriminate)) as (z & Ez & _ & Zn). eapply (G_store c _ _ _ _ _ w nv nv _ ad); [rewrite <- Zn; eapply v_bin; [var|var|exact Ez]|apply v_var; cbn; apply V2'; reflexivity|exact OW|symmetry; apply NVI; discriminate|].
        apply TL; try reflexivity. apply gle_refl.
Qed.
End Gp.
