(** AArch64 data-processing instructions: the lifted code computes the result and the
    flags of A64Spec.kdp. *)

From Coq Require Import ZArith Lia ZifyBool List Bool.
From Verif Require Import Bits IR Facet Dsl Rv64Spec Rv64Sim Rv64Arith X86Spec X86Arith A64 A64Spec A64Arith A64Sim.
Import ListNotations.
Open Scope Z_scope.
Ltac Zify.zify_post_hook ::= Z.div_mod_to_equations.

(** ** What the decoder guarantees *)
Definition is_rzr (r : xr) : bool := match r with RZR => true | _ => false end.
Definition amt_ok (i : ainst) : bool := (0 <=? a_amt i) && (a_amt i <? bits (a_w32 i)).
Definition ext_ok (i : ainst) : bool := (0 <=? a_lsl i) && (a_lsl i <=? 4).
(** The register to extend has at least the bits to take. *)
Definition ext_fits (i : ainst) : bool := ext_len (a_ext i) <=? bits (a_w32 i).
Definition field_ok (i : ainst) : bool :=
  (0 <=? a_lsb i) && (1 <=? a_width i) && (a_lsb i + a_width i <=? bits (a_w32 i)).
Definition imm_shift_ok (i : ainst) : bool := (0 <=? a_imm i) && (a_imm i <? bits (a_w32 i)).
Definition cond_ok (i : ainst) : bool := (0 <=? a_cond i) && (a_cond i <? 16).
Definition wf_regs (i : ainst) : bool := okx (a_rd i) && okx (a_rn i) && okx (a_rm i) && okx (a_ra i).
Definition wf_dp (i : ainst) : bool :=
  wf_regs i &&
  match a_op i with
  | A_ADR | A_ADRP => negb (a_w32 i)
  | A_ORR_IMM | A_EOR_IMM => negb (a_flags i)
  | A_MOV_SP => negb (a_flags i) && (a_imm i =? 0)
  | A_MOVK => (0 <=? a_lsl i) && (a_lsl i + 16 <=? bits (a_w32 i)) && (0 <=? a_imm i) && (a_imm i <? 65536)
  | A_ASR_IMM | A_LSL_IMM | A_LSR_IMM | A_ROR_IMM | A_EXTR => imm_shift_ok i
  | A_SBFIZ | A_SBFX | A_UBFIZ | A_UBFX | A_BFC | A_BFI | A_BFXIL => field_ok i
  | A_EXTEND => ext_fits i
  | A_AND_SHIFTED | A_BIC | A_ADD_SHIFTED | A_SUB_SHIFTED => amt_ok i
  | A_ORR_SHIFTED | A_ORN | A_EOR_SHIFTED | A_EON => amt_ok i && negb (a_flags i)
  | A_MVN => amt_ok i && negb (a_flags i) && is_rzr (a_rn i)
  | A_NEG => amt_ok i && is_rzr (a_rn i)
  | A_NGC => is_rzr (a_rn i)
  | A_ADD_EXT | A_SUB_EXT => ext_ok i && ext_fits i
  | A_CSEL | A_CSINC | A_CINC | A_CSET | A_CSINV | A_CINV | A_CSETM | A_CSNEG | A_CNEG => cond_ok i
  | A_MNEG => is_rzr (a_ra i)
  | A_SMADDL | A_SMSUBL | A_SMULH | A_UMADDL | A_UMSUBL | A_UMULH => negb (a_w32 i)
  | A_SMULL | A_SMNEGL | A_UMULL | A_UMNEGL => negb (a_w32 i) && is_rzr (a_ra i)
  | _ => true
  end.
(** Flags an instruction reads. *)
Definition reads (i : ainst) : list kflag :=
  match a_op i with
  | A_ADC | A_SBC | A_NGC | A_CFINV => [fC]
  | A_CSEL | A_CSINC | A_CINC | A_CSET | A_CSINV | A_CINV | A_CSETM | A_CSNEG | A_CNEG
  | A_CCMN_REG | A_CCMP_REG | A_CCMN_IMM | A_CCMP_IMM | A_BCOND | A_FCSEL | A_FCCMP => cond_flags (a_cond i)
  | A_MRS => if a_imm i =? 0xda10 then [fN; fZ; fC; fV] else []
  | _ => []
  end.
Definition flags_known (i : ainst) (g : kst) : Prop := forall f, In f (reads i) -> k_f g f <> None.
(** The case in which the flags of ADCS/SBCS/NGCS come out wrong: rm plus the carry-in (borrow-in)
    wraps around, or becomes the smallest negative number. *)
Definition adc_corner (i : ainst) (g : kst) : bool :=
  let w := if a_w32 i then 32 else 64 in
  let m := rdx g (a_rm i) w in
  let edge := (m =? 2^w - 1) || (m =? 2^(w-1) - 1) in
  match a_op i with
  | A_ADC => a_flags i && fl g fC && edge
  | A_SBC | A_NGC => a_flags i && negb (fl g fC) && edge
  | _ => false
  end.
(** The state after writing result and flags and advancing the PC. *)
Definition kput (i : ainst) (g : kst) (r : Z) (fo : option (kflag -> option bool)) : kst :=
  let g1 := wrx g (a_rd i) (if a_w32 i then 32 else 64) r in
  wrpc (match fo with Some f => wrf g1 f | None => g1 end) (k_pc g + 4).

Definition vs0 : nat -> option rv := fun _ => None.

Section Dp.
Context `{FpuOps}.
Variable c : cenv.
Hypothesis HA : c_arch c = AArch64.
Variable cfg : acfg.

(** The instruction is supported, and its code takes every state related to [g] to one related to
    [g'], with the PC represented as [p']. *)
Definition liftsp (i : ainst) (g g' : kst) (p' : pcreg) : Prop :=
  exists l, lift_a64 cfg i = Some (true, l) /\
  forall s, krel s g -> exists s', run c s l = Ok s' /\ kdone c g' p' (s_ret s) s'.
(** The same for instructions that fall through. *)
Definition lifts (i : ainst) (g g' : kst) : Prop := liftsp i g g' (PcConst (a_end i)).

Lemma lifts_go : forall i g g' l, lift_op cfg i = Some (Some (true, l)) ->
  (forall rt, K c g (PcConst (a_start i)) vs0 rt (l ++ [SPcConst (a_end i)]) (kdone c g' (PcConst (a_end i)) rt)) -> lifts i g g'.
Proof.
  intros i g g' l E T. unfold lifts, liftsp, lift_a64. rewrite E. eexists. split; [reflexivity|]. intros s R.
  apply (K_pc c g (s_pc s) vs0 (s_ret s)); [apply T|]. split; [assumption|]. split; [reflexivity|]. split; [discriminate|reflexivity].
Qed.
Lemma lifts_jump : forall i g g' p l, lift_op cfg i = Some (Some (false, l)) ->
  (forall rt, K c g (PcConst (a_start i)) vs0 rt l (kdone c g' p rt)) -> liftsp i g g' p.
Proof.
  intros i g g' p l E T. unfold liftsp, lift_a64. rewrite E. eexists. split; [reflexivity|]. intros s R.
  apply (K_pc c g (s_pc s) vs0 (s_ret s)); [apply T|]. split; [assumption|]. split; [reflexivity|]. split; [discriminate|reflexivity].
Qed.

(** ** Evaluation *)
Notation kv := (kv c).
Notation kvals := (kvals c).
Lemma kv_c : forall g p vs w z, inr w z -> kv g p vs (cI w z) w z.
Proof. intros g p vs w z I. eapply kv_eq; [|apply kv_cI]. apply trunc_small; assumption. Qed.
Lemma kv_shl : forall g p vs a b w x k, kv g p vs a w x -> kv g p vs b w k -> 0 <= k < w -> kv g p vs (eShl a b) w (trunc w (x * 2^k)).
Proof.
  intros g p vs a b w x k A B Kw. eapply kv_bin; [exact A|exact B|]. cbn [ibin]. destruct (Z.ltb_spec k w); [|lia].
  rewrite Z.shiftl_mul_pow2 by lia. reflexivity.
Qed.
Lemma kv_lshr : forall g p vs a b w x k, kv g p vs a w x -> kv g p vs b w k -> 0 <= k < w -> kv g p vs (eLShr a b) w (x / 2^k).
Proof.
  intros g p vs a b w x k A B Kw. eapply kv_bin; [exact A|exact B|]. cbn [ibin]. destruct (Z.ltb_spec k w); [|lia].
  rewrite Z.shiftr_div_pow2 by lia. reflexivity.
Qed.
Lemma kv_ashr : forall g p vs a b w x k, kv g p vs a w x -> kv g p vs b w k -> 0 <= k < w -> inr w x ->
  kv g p vs (eAShr a b) w (trunc w (S_ w x / 2^k)).
Proof.
  intros g p vs a b w x k A B Kw X. eapply kv_bin; [exact A|exact B|]. cbn [ibin]. destruct (Z.ltb_spec k w); [|lia].
  rewrite S_small, Z.shiftr_div_pow2 by (assumption || lia). reflexivity.
Qed.
Lemma kv_and : forall g p vs a b w x y, kv g p vs a w x -> kv g p vs b w y -> kv g p vs (eAnd a b) w (Z.land x y).
Proof. intros. eapply kv_bin; eauto. Qed.
Lemma kv_or : forall g p vs a b w x y, kv g p vs a w x -> kv g p vs b w y -> kv g p vs (eOr a b) w (Z.lor x y).
Proof. intros. eapply kv_bin; eauto. Qed.
Lemma kv_xor : forall g p vs a b w x y, kv g p vs a w x -> kv g p vs b w y -> kv g p vs (eXor a b) w (Z.lxor x y).
Proof. intros. eapply kv_bin; eauto. Qed.
Lemma kv_add : forall g p vs a b w x y, kv g p vs a w x -> kv g p vs b w y -> kv g p vs (eAdd a b) w (trunc w (x + y)).
Proof. intros. eapply kv_bin; eauto. Qed.
Lemma kv_sub : forall g p vs a b w x y, kv g p vs a w x -> kv g p vs b w y -> kv g p vs (eSub a b) w (trunc w (x - y)).
Proof. intros. eapply kv_bin; eauto. Qed.
Lemma kv_mul : forall g p vs a b w x y, kv g p vs a w x -> kv g p vs b w y -> kv g p vs (eMul a b) w (trunc w (x * y)).
Proof. intros. eapply kv_bin; eauto. Qed.
Lemma kv_mask : forall g p vs w32 e x, kv g p vs e (bits w32) x -> inr (bits w32) x ->
  kv g p vs (eAnd e (cI (bits w32) (bits w32 - 1))) (bits w32) (x mod bits w32).
Proof.
  intros g p vs w32 e x E X. eapply kv_eq; [|apply kv_and; [exact E|apply kv_cI]].
  rewrite <- (trunc_small (bits w32) x) at 1 by assumption. destruct w32; [apply mask32|apply mask64].
Qed.

Lemma kv_Shift : forall g p vs w e sh x k, kv g p vs e w x -> inr w x -> 0 < w -> 0 <= k < w ->
  exists e', Shift w e sh k = Some e' /\ kv g p vs e' w (shift_reg w sh x k).
Proof.
  intros g p vs w e sh x k E X W Kw. unfold Shift. destruct (Z.ltb_spec k w); [|lia]. cbn [negb].
  destruct (Z.eqb_spec k 0) as [->|N].
  - exists e. split; [reflexivity|]. eapply kv_eq; [|exact E]. destruct sh; unfold shift_reg; change U with trunc.
    + change (2^0) with 1. rewrite Z.mul_1_r. symmetry. apply trunc_small; assumption.
    + change (2^0) with 1. rewrite Z.div_1_r. reflexivity.
    + change (2^0) with 1. rewrite Z.div_1_r, trunc_S by lia. symmetry. apply trunc_small; assumption.
    + unfold rotr, rotl. change U with trunc. rewrite (trunc_small w x X). change (- (0)) with 0. rewrite Z.mod_0_l by lia. change (2^0) with 1.
      rewrite Z.sub_0_r, Z.div_small by exact X. rewrite Z.mul_1_r, Z.add_0_r. symmetry. apply trunc_small; assumption.
  - assert (KI : inr w k).
    { split; [lia|]. pose proof (Z.pow_gt_lin_r 2 w ltac:(lia) ltac:(lia)). lia. }
    pose proof (kv_c g p vs w k KI) as C.
    destruct sh; eexists; (split; [reflexivity|]); unfold shift_reg; change U with trunc.
    + apply kv_shl; assumption.
    + apply kv_lshr; assumption.
    + apply kv_ashr; assumption.
    + rewrite <- fshr_rot by assumption. apply kv_fsh; assumption.
Qed.
Lemma shift_reg_inr : forall w sh x k, 0 <= w -> 0 <= k -> inr w x -> inr w (shift_reg w sh x k).
Proof. intros w sh x k W Kw X. destruct sh; try (apply trunc_range; assumption). cbn [shift_reg]. apply div_inr; assumption. Qed.

Lemma trunc_scale_congr : forall w k a b, 0 <= k <= w -> trunc (w - k) a = trunc (w - k) b -> trunc w (a * 2^k) = trunc w (b * 2^k).
Proof.
  intros w k a b Kw E. unfold trunc in *. replace w with ((w - k) + k) by lia. rewrite Z.pow_add_r by lia.
  rewrite !Z.mul_mod_distr_r by (apply Z.pow_nonzero; lia). rewrite E. reflexivity.
Qed.
Lemma ext_src_len : forall e, ext_src e = ext_len e. Proof. intros []; reflexivity. Qed.
Lemma ext_signed_uns : forall e, ext_signed e = negb (ext_uns e). Proof. intros []; reflexivity. Qed.
Lemma ext_len_pos : forall e, 0 < ext_len e <= 64. Proof. intros []; cbn; lia. Qed.
Lemma kv_Extend : forall g p vs w0 w32 e x t k, kv g p vs e w0 x -> inr w0 x -> ext_len t <= bits w32 -> ext_len t <= w0 -> 0 <= k < bits w32 ->
  exists e', Extend e w32 t k = Some e' /\ kv g p vs e' (bits w32) (extend_reg (bits w32) t x k).
Proof.
  intros g p vs w0 w32 e x t k E X F F0 Kw. pose proof (ext_len_pos t) as LP. pose proof (bits_pos w32) as WP.
  unfold Extend. rewrite ext_src_len, ext_signed_uns.
  assert (ET : kv g p vs (eTrunc (ext_len t) e) (ext_len t) (trunc (ext_len t) x)) by (eapply kv_trunc; [exact E|lia|assumption]).
  pose proof (trunc_range (ext_len t) x ltac:(lia)) as TI.
  assert (EX : kv g p vs (if negb (ext_uns t) then eSExt (bits w32) (eTrunc (ext_len t) e) else eZExt (bits w32) (eTrunc (ext_len t) e)) (bits w32)
    (if ext_uns t then trunc (ext_len t) x else trunc (bits w32) (S_ (ext_len t) x))).
  { destruct (ext_uns t); cbn [negb]; [eapply kv_zext; [exact ET|assumption]|].
    eapply kv_eq; [|eapply kv_sext; [exact ET|lia|assumption]]. reflexivity. }
  destruct (kv_Shift g p vs (bits w32) _ SH_LSL _ k EX) as (e' & S1 & S2); [|lia|assumption|].
  { destruct (ext_uns t); [apply (inr_le (ext_len t)); [lia|assumption]|apply trunc_range; lia]. }
  exists e'. split; [exact S1|]. eapply kv_eq; [|exact S2]. cbn [shift_reg]. unfold extend_reg. change U with trunc.
  apply trunc_scale_congr; [lia|].
  destruct (ext_uns t).
  - destruct (Z.min_spec (ext_len t) (bits w32 - k)) as [[M ->]|[M ->]]; [reflexivity|].
    rewrite trunc_trunc, trunc_trunc_le by lia. reflexivity.
  - rewrite trunc_trunc_le by lia. destruct (Z.min_spec (ext_len t) (bits w32 - k)) as [[M ->]|[M ->]]; [reflexivity|].
    rewrite (trunc_S (bits w32 - k)) by lia.
    rewrite <- (trunc_trunc_le (bits w32 - k) (ext_len t) (S_ _ _)), trunc_S, trunc_trunc_le by lia. reflexivity.
Qed.
Lemma extend_reg_inr : forall w t x k, 0 <= w -> inr w (extend_reg w t x k).
Proof. intros. apply trunc_range. assumption. Qed.

Lemma kv_IsTrue : forall g p vs k, 0 <= k < 16 -> (forall f, In f (cond_flags k) -> k_f g f <> None) ->
  exists e, IsTrue k = Some e /\ kv g p vs e 1 (b2z (cond_holds k g)).
Proof.
  intros g p vs k Kr N. destruct (IsTrue k) as [e|] eqn:E.
  - exists e. split; [reflexivity|]. intros s rt (R & _). destruct (val_IsTrue c s g k R Kr N) as (e' & E' & V'). congruence.
  - exfalso. assert (C : k = 0 \/ k = 1 \/ k = 2 \/ k = 3 \/ k = 4 \/ k = 5 \/ k = 6 \/ k = 7 \/ k = 8 \/ k = 9 \/ k = 10 \/ k = 11 \/ k = 12 \/ k = 13 \/ k = 14 \/ k = 15) by lia.
    repeat (destruct C as [->|C]; [discriminate E|]). subst k. discriminate E.
Qed.

(** ** One instruction *)
Section Inst.
Variable i : ainst.
Variable g : kst.
Hypothesis PC : k_pc g = addr_pc_base c (a_start i).
Hypothesis WR : wf_regs i = true.
Let w := bits (a_w32 i).
Let p := PcConst (a_start i).
Let n := rdx g (a_rn i) w.
Let m := rdx g (a_rm i) w.
Let a := rdx g (a_ra i) w.
Let d := rdx g (a_rd i) w.

Lemma W : 0 < w <= 64. Proof. apply bits_pos. Qed.
Lemma OD : okx (a_rd i) = true. Proof. unfold wf_regs in WR. destruct (okx (a_rd i)); [reflexivity|discriminate WR]. Qed.
Lemma ON : okx (a_rn i) = true. Proof. unfold wf_regs in WR. destruct (okx (a_rn i)); [reflexivity|rewrite andb_false_r in WR; discriminate WR]. Qed.
Lemma OM : okx (a_rm i) = true. Proof. unfold wf_regs in WR. destruct (okx (a_rm i)); [reflexivity|rewrite andb_false_r in WR; discriminate WR]. Qed.
Lemma OA : okx (a_ra i) = true. Proof. unfold wf_regs in WR. destruct (okx (a_ra i)); [reflexivity|rewrite andb_false_r in WR; discriminate WR]. Qed.
Lemma Ni : inr w n. Proof. apply rdx_inr. pose proof W. lia. Qed.
Lemma Mi : inr w m. Proof. apply rdx_inr. pose proof W. lia. Qed.
Lemma Ai : inr w a. Proof. apply rdx_inr. pose proof W. lia. Qed.
Lemma Di : inr w d. Proof. apply rdx_inr. pose proof W. lia. Qed.
Lemma EN : kv g p vs0 (GetGp (a_rn i) (a_w32 i)) w n. Proof. apply kv_gp, ON. Qed.
Lemma EM : kv g p vs0 (GetGp (a_rm i) (a_w32 i)) w m. Proof. apply kv_gp, OM. Qed.
Lemma EA : kv g p vs0 (GetGp (a_ra i) (a_w32 i)) w a. Proof. apply kv_gp, OA. Qed.
Lemma ED : kv g p vs0 (GetGp (a_rd i) (a_w32 i)) w d. Proof. apply kv_gp, OD. Qed.
Local Hint Resolve W ON OM OA OD Ni Mi Ai Di EN EM EA ED : core.

Lemma kput_end : forall r g1 fo vs rt, g1 = match fo with Some f => wrf (wrx g (a_rd i) w r) f | None => wrx g (a_rd i) w r end ->
  forall p', K c g1 p' vs rt [SPcConst (a_end i)] (kdone c (kput i g r fo) (PcConst (a_end i)) rt).
Proof.
  intros r g1 fo vs rt -> p'. unfold kput. fold (bits (a_w32 i)). fold w.
  assert (P1 : k_pc (match fo with Some f => wrf (wrx g (a_rd i) w r) f | None => wrx g (a_rd i) w r end) = k_pc g).
  { destruct fo, (a_rd i); reflexivity. }
  rewrite <- P1 at 1. apply K_end; [rewrite P1; exact PC|apply kle_refl].
Qed.

Lemma lifts_set : forall e r, lift_op cfg i = Some (Some (true, SetGp (a_rd i) e)) -> kv g p vs0 e w (trunc w r) ->
  lifts i g (kput i g (U w r) None).
Proof.
  intros e r E V. eapply lifts_go; [exact E|]. intro rt.
  eapply K_setgp; [exact V|auto|apply trunc_range; pose proof W; lia|auto|reflexivity| |].
  - instantiate (1 := U w r). change U with trunc. rewrite trunc_trunc by (pose proof W; lia). reflexivity.
  - eapply kput_end. reflexivity.
Qed.

(** LiftBinOp. *)
Lemma bin_go : forall op rhs inv l y r fo,
  LiftBinOp cfg i op (Some rhs) inv = Some l -> lift_op cfg i = Some (Some (true, l)) ->
  kv g p vs0 rhs w y -> inr w y -> forall y', y' = (if inv then knot w y else y) ->
  match op with
  | Add => (r, fo) = (fst (awc w n y' false), if a_flags i then Some (snd (awc w n y' false)) else None)
  | Sub => (r, fo) = (fst (awc w n (knot w y') true), if a_flags i then Some (snd (awc w n (knot w y') true)) else None)
  | And => (r, fo) = (Z.land n y', if a_flags i then Some (nzcv (Z.testbit (Z.land n y') (w - 1)) (Z.land n y' =? 0) false false) else None)
  | Or => a_flags i = false /\ r = Z.lor n y' /\ fo = None
  | Xor => a_flags i = false /\ r = Z.lxor n y' /\ fo = None
  | _ => False
  end -> lifts i g (kput i g r fo).
Proof.
  intros op rhs inv l y r fo LB LO EY Y y' Ey' Q. eapply lifts_go; [exact LO|]. intro rt.
  pose proof W as WW. pose proof Ni as NI.
  assert (Y' : inr w y') by (subst y'; destruct inv; [apply knot_inr|]; assumption).
  assert (EY' : forall g0 vs, (forall x v, vs0 x = Some v -> vs x = Some v) -> g0 = g -> kv g0 p vs (if inv then eNot w rhs else rhs) w y').
  { intros g0 vs _ ->. intros s rt0 (R & P & VS & RT). assert (A0 : kAt g p vs0 rt0 s) by (split; [assumption|split; [assumption|split; [discriminate|assumption]]]).
    subst y'. destruct inv; [apply val_notw; [lia|assumption|exact (EY s rt0 A0)]|exact (EY s rt0 A0)]. }
  assert (HR : exists r0, ibin op w n y' = IV r0 /\ inr w r0 /\ r = r0).
  { destruct op; try contradiction; cbn [ibin]; eexists; (split; [reflexivity|]).
    - rewrite awc_add in Q by (assumption || lia). cbn [fst] in Q. injection Q as -> ->. split; [apply trunc_range; lia|reflexivity].
    - rewrite awc_sub in Q by (assumption || lia). cbn [fst] in Q. injection Q as -> ->. split; [apply trunc_range; lia|reflexivity].
    - injection Q as -> ->. split; [apply land_inr; assumption || lia|reflexivity].
    - destruct Q as (_ & -> & _). split; [apply lor_inr; assumption || lia|reflexivity].
    - destruct Q as (_ & -> & _). split; [apply lxor_inr; assumption || lia|reflexivity]. }
  destruct HR as (r0 & IB & R0 & ER). subst r0.
  set (vs1 := upd_var (upd_var (upd_var vs0 0 (V (TInt w) n)) 1 (V (TInt w) y')) 2 (V (TInt w) r)).
  set (code := [SLet 0 (GetGp (a_rn i) (a_w32 i)); SLet 1 (if inv then eNot w rhs else rhs); SLet 2 (eBin op (vX 0) (vX 1))] ++ SetGp (a_rd i) (vX 2)).
  assert (CODE : forall tl Q0, K c (wrx g (a_rd i) w r) p vs1 rt tl Q0 -> K c g p vs0 rt (code ++ tl) Q0).
  { intros tl Q0 T. unfold code. rewrite <- app_assoc. cbn [app].
    eapply K_let; [apply kv_vals, EN|]. eapply K_let; [apply kv_vals, EY'; [discriminate|reflexivity]|].
    eapply K_let; [apply kv_vals; eapply kv_bin; [apply kv_var; reflexivity|apply kv_var; reflexivity|exact IB]|].
    eapply K_setgp; [apply kv_var; reflexivity|lia|assumption|auto|reflexivity| |exact T].
    symmetry. apply trunc_small; assumption. }
  assert (V2 : forall g', kv g' p vs1 (vX 2) w r) by (intro; apply kv_var; reflexivity).
  assert (V0 : forall g', kv g' p vs1 (vX 0) w n) by (intro; apply kv_var; reflexivity).
  assert (V1 : forall g', kv g' p vs1 (vX 1) w y') by (intro; apply kv_var; reflexivity).
  unfold LiftBinOp in LB. fold w in LB. fold code in LB. destruct (a_flags i) eqn:AF.
  - destruct op; try contradiction; try discriminate LB; try (destruct Q as (Q & _); discriminate Q); apply (f_equal (fun o => match o with Some x => x | None => [] end)) in LB; cbv beta iota in LB; rewrite <- LB.
    + rewrite <- app_assoc. apply CODE. injection Q as Qr ->.
      eapply (K_flag_add c); [exact WW|exact NI|exact Y'| |exact V0|exact V1|eapply kput_end; reflexivity].
      intro. eapply kv_eq; [|apply V2]. cbn [ibin] in IB. congruence.
    + rewrite <- app_assoc. apply CODE. injection Q as Qr ->.
      eapply (K_flag_sub c); [exact WW|exact NI|exact Y'| |exact V0|exact V1|eapply kput_end; reflexivity].
      intro. eapply kv_eq; [|apply V2]. cbn [ibin] in IB. congruence.
    + rewrite <- app_assoc. apply CODE. injection Q as Qr ->.
      eapply (K_flag_logic c); [exact WW|exact R0|exact V2|]. rewrite <- Qr. eapply kput_end. reflexivity.
  - apply (f_equal (fun o => match o with Some x => x | None => [] end)) in LB; cbv beta iota in LB; rewrite <- LB. apply CODE.
    assert (FO : fo = None) by (destruct op; try contradiction; try (injection Q as _ ->; reflexivity); destruct Q as (_ & _ & ->); reflexivity).
    subst fo. eapply kput_end. reflexivity.
Qed.

Lemma bin_flags : forall op rhs inv, op = Add \/ op = Sub \/ op = And \/ (a_flags i = false /\ (op = Or \/ op = Xor)) ->
  exists l, LiftBinOp cfg i op (Some rhs) inv = Some l.
Proof.
  intros op rhs inv O. unfold LiftBinOp. destruct (a_flags i); destruct O as [->|[->|[->|(F & [->| ->])]]]; try discriminate F; eexists; reflexivity.
Qed.

Lemma sh_ok : amt_ok i = true -> exists e, rhs_shift i = Some e /\ kv g p vs0 e w (shift_reg w (a_sh i) m (a_amt i)) /\ inr w (shift_reg w (a_sh i) m (a_amt i)).
Proof.
  intro A. unfold amt_ok in A. fold w in A. pose proof W.
  destruct (kv_Shift g p vs0 w _ (a_sh i) m (a_amt i) EM Mi) as (e & E1 & E2); [lia|lia|].
  exists e. split; [exact E1|]. split; [exact E2|]. apply shift_reg_inr; try lia. apply Mi.
Qed.
Lemma ex_ok : ext_ok i = true -> ext_fits i = true ->
  exists e, rhs_ext i = Some e /\ kv g p vs0 e w (extend_reg w (a_ext i) m (a_lsl i)) /\ inr w (extend_reg w (a_ext i) m (a_lsl i)).
Proof.
  intros A F. unfold ext_ok, ext_fits in *. pose proof W as WW. unfold w in WW.
  destruct (kv_Extend g p vs0 w (a_w32 i) _ m (a_ext i) (a_lsl i) EM Mi) as (e & E1 & E2); try (unfold w; lia).
  { destruct (bits_cases (a_w32 i)); lia. }
  exists e. split; [exact E1|]. split; [exact E2|]. apply extend_reg_inr. unfold w. lia.
Qed.
Lemma imm_ok : exists e, rhs_imm i = Some e /\ kv g p vs0 e w (U w (a_imm i)) /\ inr w (U w (a_imm i)).
Proof. eexists. split; [reflexivity|]. split; [apply kv_cI|apply trunc_range; pose proof W; lia]. Qed.

(** Sign-extended bit fields. *)
Lemma sext_go : forall f F k r,
  lift_op cfg i = Some (Some (true, [SLet 0 f] ++ SetGp (a_rd i)
    (eSel (eCmp NE (eAnd (vX 0) (cI w (- 2 ^ k))) (cI w 0)) (eOr (vX 0) (cI w (- 2 ^ k))) (vX 0)))) ->
  kv g p vs0 f w F -> 0 <= k < w -> 0 <= F < 2^(k+1) -> S_ (k+1) F = r -> lifts i g (kput i g (U w r) None).
Proof.
  intros f F k r LO EF Kw FR Er. eapply lifts_go; [exact LO|]. intro rt. rewrite <- app_assoc. cbn [app].
  eapply K_let; [apply kv_vals, EF|].
  assert (V0 : forall g', kv g' p (upd_var vs0 0 (V (TInt w) F)) (vX 0) w F) by (intro; apply kv_var; reflexivity).
  eapply K_setgp with (w := w) (z := U w r); [|auto|apply trunc_range; pose proof W; lia|auto|reflexivity| |].
  - subst r. change U with trunc. rewrite <- sext_select by assumption.
    eapply kv_eq; [|eapply kv_sel; [apply kv_cmp; [apply kv_and; [apply V0|apply kv_cI]|apply kv_cI]|apply kv_or; [apply V0|apply kv_cI]|apply V0]].
    cbn [icmp_sem]. rewrite (trunc_small w 0) by (apply inr0; pose proof W; lia). destruct (_ =? 0); reflexivity.
  - instantiate (1 := U w r). change U with trunc. rewrite trunc_trunc by (pose proof W; lia). reflexivity.
  - eapply kput_end. reflexivity.
Qed.
Lemma kv_move : forall e x lsb wd, kv g p vs0 e w x -> 0 <= lsb -> 1 <= wd -> lsb + wd <= w ->
  kv g p vs0 (MoveField e w lsb wd) w (trunc wd x * 2^lsb).
Proof.
  intros e x lsb wd E L Wd B. pose proof W as WW. unfold MoveField.
  assert (LI : inr w lsb). { split; [lia|]. pose proof (Z.pow_gt_lin_r 2 w ltac:(lia) ltac:(lia)). lia. }
  eapply kv_eq; [|apply kv_shl; [apply kv_and; [exact E|apply kv_cI]|apply kv_c; exact LI|lia]].
  rewrite land_ones by lia. apply trunc_small. apply (field_inr _ _ wd); try lia. apply trunc_range. lia.
Qed.
Lemma kv_extract : forall e x lsb wd, kv g p vs0 e w x -> 0 <= lsb -> 1 <= wd -> lsb + wd <= w ->
  kv g p vs0 (Extract e w lsb wd) w (trunc wd (x / 2^lsb)).
Proof.
  intros e x lsb wd E L Wd B. pose proof W as WW. unfold Extract.
  assert (LI : inr w lsb). { split; [lia|]. pose proof (Z.pow_gt_lin_r 2 w ltac:(lia) ltac:(lia)). lia. }
  eapply kv_eq; [|apply kv_and; [apply kv_lshr; [exact E|apply kv_c; exact LI|lia]|apply kv_cI]].
  apply land_ones; lia.
Qed.
Lemma kv_clear : forall e x lsb wd, kv g p vs0 e w x -> inr w x -> 0 <= lsb -> 1 <= wd -> lsb + wd <= w ->
  kv g p vs0 (eAnd e (cI w (Z.lnot (ones wd * 2 ^ lsb)))) w (x - trunc wd (x / 2^lsb) * 2^lsb).
Proof.
  intros e x lsb wd E X L Wd B. pose proof W as WW. eapply kv_eq; [|apply kv_and; [exact E|apply kv_cI]].
  apply clear_val; (assumption || lia).
Qed.

Lemma pos_inr : forall k, 0 <= k < w -> inr w k.
Proof. intros k Kw. split; [lia|]. pose proof (Z.pow_gt_lin_r 2 w ltac:(lia) ltac:(lia)). lia. Qed.

Ltac lo E := unfold lift_op; rewrite E; reflexivity.
Ltac tw := repeat (rewrite trunc_trunc by (pose proof W; lia)).

Lemma dp_udiv : a_op i = A_UDIV -> lifts i g (kput i g (U w (if m =? 0 then 0 else Z.quot n m)) None).
Proof.
  intro E. pose proof W as WW. pose proof Ni as NI. pose proof Mi as MI. eapply lifts_go; [lo E|]. intro rt. cbn [app].
  eapply K_let; [apply kv_vals, EN|]. eapply K_let; [apply kv_vals, kv_gp, OM|].
  match goal with |- K c g ?p0 ?vs _ _ _ =>
    assert (V0 : kv g p0 vs (vX 0) w n) by (apply kv_var; reflexivity);
    assert (V1 : kv g p0 vs (vX 1) w m) by (apply kv_var; reflexivity);
    assert (ZE : kv g p0 vs (eCmp EQ (vX 1) (cI w 0)) 1 (b2z (m =? 0))) end.
  { eapply kv_eq; [|apply kv_cmp; [apply V1|apply kv_c, inr0; lia]]. reflexivity. }
  assert (QI : inr w (if m =? 0 then 0 else n / (if m =? 0 then 1 else m))).
  { destruct (Z.eqb_spec m 0); [apply inr0; lia|]. apply udiv_inr; (assumption || lia). }
  eapply K_setgp with (w := w); [|auto|exact QI|auto|reflexivity| |].
  - eapply kv_sel; [exact ZE|apply kv_c, inr0; lia|].
    eapply kv_bin; [exact V0|eapply kv_sel; [exact ZE|apply kv_c; apply pos_inr; destruct (bits_cases (a_w32 i)); unfold w; lia|exact V1]|].
    cbn [ibin]. destruct (Z.eqb_spec m 0) as [M0|M0]; [reflexivity|]. destruct (Z.eqb_spec m 0); [contradiction|reflexivity].
  - instantiate (1 := U w (if m =? 0 then 0 else Z.quot n m)). change U with trunc. tw.
    destruct (Z.eqb_spec m 0); [symmetry; apply trunc_small, inr0; lia|].
    rewrite Z.quot_div_nonneg by (unfold inr in *; lia). symmetry. apply trunc_small. apply udiv_inr; (assumption || lia).
  - eapply kput_end. reflexivity.
Qed.
Lemma dp_sdiv : a_op i = A_SDIV -> lifts i g (kput i g (U w (if S_ w m =? 0 then 0 else Z.quot (S_ w n) (S_ w m))) None).
Proof.
  intro E. pose proof W as WW. pose proof Ni as NI. pose proof Mi as MI. eapply lifts_go; [lo E|]. intro rt. cbn [app].
  eapply K_let; [apply kv_vals, EN|]. eapply K_let; [apply kv_vals, kv_gp, OM|].
  match goal with |- K c g ?p0 ?vs _ _ _ =>
    assert (V0 : kv g p0 vs (vX 0) w n) by (apply kv_var; reflexivity);
    assert (V1 : kv g p0 vs (vX 1) w m) by (apply kv_var; reflexivity);
    assert (ZE : kv g p0 vs (eCmp EQ (vX 1) (cI w 0)) 1 (b2z (m =? 0))) end.
  { eapply kv_eq; [|apply kv_cmp; [apply V1|apply kv_c, inr0; lia]]. reflexivity. }
  set (q := (n =? trunc w (- 2^(w-1))) && (m =? trunc w (-1))).
  match goal with |- K c g ?p0 ?vs _ _ _ =>
    assert (ME : kv g p0 vs (eAnd (eCmp EQ (vX 0) (cI w (- 2 ^ (w - 1)))) (eCmp EQ (vX 1) (cI w (-1)))) 1 (b2z q)) end.
  { intros s rt0 A0. apply val_and1; [eapply (kv_cmp c _ _ _ EQ); [exact V0|apply kv_cI|exact A0]|eapply (kv_cmp c _ _ _ EQ); [exact V1|apply kv_cI|exact A0]]. }
  assert (MN : trunc w (- 2^(w-1)) = 2^(w-1)).
  { unfold trunc. rewrite (pow2_succ w) by lia. pose proof (pow2_pos (w-1) ltac:(lia)). symmetry. apply Z.mod_unique with (q := -1); lia. }
  assert (M1 : trunc w (-1) = 2^w - 1) by (apply trunc_m1; lia).
  assert (W1 : 1 < w) by (destruct (bits_cases (a_w32 i)); unfold w; lia).
  assert (I1 : inr w 1) by (apply pos_inr; lia).
  assert (SM : (S_ w m =? 0) = (m =? 0)).
  { rewrite S_small by assumption. pose proof (sgn_zero_iff w m ltac:(lia) MI) as Q. destruct (Z.eqb_spec m 0), (Z.eqb_spec (sgn w m) 0); tauto. }
  set (dv := if q then 1 else if m =? 0 then 1 else m).
  assert (DV : ibin SDiv w n dv = IV (trunc w (Z.quot (sgn w n) (sgn w dv)))).
  { unfold dv, q. rewrite MN, M1. cbn [ibin].
    assert (S1 : sgn w 1 = 1). { unfold sgn. destruct (Z.ltb_spec 1 (2^(w-1))) as [L|L]; [reflexivity|].
      assert (2^1 <= 2^(w-1)) by (apply Z.pow_le_mono_r; lia). lia. }
    destruct (Z.eqb_spec m (2^w - 1)) as [E1|E1].
    - rewrite andb_true_r. destruct (Z.eqb_spec n (2^(w-1))) as [E2|E2].
      + change (1 =? 0) with false. cbv iota. rewrite S1. change (1 =? -1) with false. rewrite andb_false_r. reflexivity.
      + pose proof (pow2_pos w ltac:(lia)) as PW. pose proof (pow2_pos (w-1) ltac:(lia)) as PW1. pose proof (pow2_succ w ltac:(lia)) as PS.
        destruct (Z.eqb_spec m 0); [change (1 =? 0) with false; cbv iota; rewrite S1; change (1 =? -1) with false; rewrite andb_false_r; reflexivity|].
        destruct (Z.eqb_spec m 0); [contradiction|]. replace (sgn w n =? - 2^(w-1)) with false; [reflexivity|].
        symmetry. apply Z.eqb_neq. unfold sgn, inr in *. destruct (Z.ltb_spec n (2^(w-1))); lia.
    - rewrite andb_false_r. destruct (Z.eqb_spec m 0); [change (1 =? 0) with false; cbv iota; rewrite S1; change (1 =? -1) with false; rewrite andb_false_r; reflexivity|].
      exact (sdiv_ok w n m W1 NI MI n0 E1). }
  eapply K_setgp with (w := w) (z := if m =? 0 then 0 else if q then trunc w (- 2^(w-1)) else trunc w (Z.quot (sgn w n) (sgn w dv)));
    [|auto| |auto|reflexivity| |].
  - eapply kv_sel; [exact ZE|apply kv_c, inr0; lia|]. eapply kv_sel; [exact ME|apply kv_cI|].
    eapply kv_bin; [exact V0| |exact DV]. eapply kv_sel; [exact ME|apply kv_c; exact I1|]. eapply kv_sel; [exact ZE|apply kv_c; exact I1|exact V1].
  - destruct (m =? 0); [apply inr0; lia|]. destruct q; apply trunc_range; lia.
  - instantiate (1 := U w (if S_ w m =? 0 then 0 else Z.quot (S_ w n) (S_ w m))). change U with trunc. tw. rewrite SM.
    unfold dv. destruct (Z.eqb_spec m 0) as [M0|M0]; [symmetry; apply trunc_small, inr0; lia|].
    rewrite !S_small by assumption. destruct q eqn:Q; [|reflexivity].
    unfold q in Q. rewrite MN, M1 in Q. assert (n = 2^(w-1) /\ m = 2^w - 1) as [-> ->] by lia.
    rewrite sgn_ones by lia. unfold sgn. rewrite Z.ltb_irrefl. rewrite MN. replace (2 ^ (w - 1) - 2 ^ w) with (- 2^(w-1)) by (rewrite (pow2_succ w) by lia; lia). change (-1) with (- (1)).
    rewrite Z.quot_opp_r by lia. rewrite Z.quot_1_r.
    rewrite Z.opp_involutive.
    symmetry. apply trunc_small. unfold inr. rewrite (pow2_succ w) by lia. pose proof (pow2_pos (w-1) ltac:(lia)). lia.
  - eapply kput_end. reflexivity.
Qed.

Lemma dp_sel : forall e1 e2 x y r, lift_op cfg i = go (LiftSel i e1 e2) -> cond_ok i = true -> (forall f, In f (cond_flags (a_cond i)) -> k_f g f <> None) ->
  kv g p vs0 e1 w x -> kv g p vs0 e2 w y -> (if cond_holds (a_cond i) g then x else y) = trunc w r -> lifts i g (kput i g (U w r) None).
Proof.
  intros e1 e2 x y r LO C N E1 E2 Er. unfold cond_ok in C.
  destruct (kv_IsTrue g p vs0 (a_cond i) ltac:(lia) N) as (k & K1 & K2).
  eapply lifts_set; [rewrite LO; unfold LiftSel; rewrite K1; reflexivity|]. rewrite <- Er. apply kv_sel; assumption.
Qed.

(** Multiplications to the double width. *)
Lemma kv_long : forall base op bx (sg : bool) nx mx, a_w32 i = false -> kv g p vs0 base 64 bx -> inr 64 bx -> op = Add \/ op = Sub ->
  nx = (if sg then S_ 32 (rdx g (a_rn i) 32) else rdx g (a_rn i) 32) -> mx = (if sg then S_ 32 (rdx g (a_rm i) 32) else rdx g (a_rm i) 32) ->
  kv g p vs0 (MulAddSub base op (GetGp (a_rn i) true) (GetGp (a_rm i) true) (if sg then CSExt else CZExt) 32) w
     (trunc w (if match op with Add => true | _ => false end then bx + nx * mx else bx - nx * mx)).
Proof.
  intros base op bx sg nx mx W32 EB BI O En Em. assert (W64 : w = 64) by (unfold w; rewrite W32; reflexivity). rewrite W64.
  pose proof (kv_gp c g p vs0 (a_rn i) true ON) as F1. pose proof (kv_gp c g p vs0 (a_rm i) true OM) as F2. cbn [bits] in F1, F2.
  pose proof (rdx_inr g (a_rn i) 32 ltac:(lia)) as I1. pose proof (rdx_inr g (a_rm i) 32 ltac:(lia)) as I2.
  set (e := if sg then CSExt else CZExt).
  assert (XB : kv g p vs0 (E1 (OCast e (TInt (2 * 32))) base) 64 bx).
  { unfold e. destruct sg; [|exact (kv_zext c g p vs0 base 64 64 bx EB ltac:(lia))].
    eapply kv_eq; [|exact (kv_sext c g p vs0 base 64 64 bx EB ltac:(lia) BI)]. apply sext_same; [lia|assumption]. }
  assert (XN : kv g p vs0 (E1 (OCast e (TInt (2 * 32))) (GetGp (a_rn i) true)) 64 (trunc 64 nx)).
  { unfold e. subst nx. destruct sg.
    - eapply kv_eq; [|exact (kv_sext c g p vs0 _ 32 64 _ F1 ltac:(lia) I1)]. unfold sext. rewrite S_small by assumption. reflexivity.
    - eapply kv_eq; [|exact (kv_zext c g p vs0 _ 32 64 _ F1 ltac:(lia))]. symmetry. apply trunc_small. apply (inr_le 32); [lia|assumption]. }
  assert (XM : kv g p vs0 (E1 (OCast e (TInt (2 * 32))) (GetGp (a_rm i) true)) 64 (trunc 64 mx)).
  { unfold e. subst mx. destruct sg.
    - eapply kv_eq; [|exact (kv_sext c g p vs0 _ 32 64 _ F2 ltac:(lia) I2)]. unfold sext. rewrite S_small by assumption. reflexivity.
    - eapply kv_eq; [|exact (kv_zext c g p vs0 _ 32 64 _ F2 ltac:(lia))]. symmetry. apply trunc_small. apply (inr_le 32); [lia|assumption]. }
  unfold MulAddSub. pose proof (kv_mul _ _ _ _ _ _ _ _ XN XM) as XP. rewrite trunc_mul_l, trunc_mul_r in XP by lia.
  destruct O as [->| ->]; (eapply kv_bin; [exact XB|exact XP|]); cbn [ibin]; f_equal; [apply trunc_add_r|apply trunc_sub_r]; lia.
Qed.
Lemma kv_mulh : forall (sg : bool) nx mx, a_w32 i = false -> 
  nx = (if sg then S_ 64 (rdx g (a_rn i) 64) else rdx g (a_rn i) 64) -> mx = (if sg then S_ 64 (rdx g (a_rm i) 64) else rdx g (a_rm i) 64) ->
  kv g p vs0 (eTrunc 64 (eLShr (MulAddSub (cI 64 0) Add (GetGp (a_rn i) false) (GetGp (a_rm i) false) (if sg then CSExt else CZExt) 64) (cI 128 64))) w
     (trunc w (nx * mx / 2^64)).
Proof.
  intros sg nx mx W32 En Em. assert (W64 : w = 64) by (unfold w; rewrite W32; reflexivity). rewrite W64.
  pose proof (kv_gp c g p vs0 (a_rn i) false ON) as F1. pose proof (kv_gp c g p vs0 (a_rm i) false OM) as F2. cbn [bits] in F1, F2.
  pose proof (rdx_inr g (a_rn i) 64 ltac:(lia)) as I1. pose proof (rdx_inr g (a_rm i) 64 ltac:(lia)) as I2.
  set (e := if sg then CSExt else CZExt).
  assert (XB : kv g p vs0 (E1 (OCast e (TInt (2 * 64))) (cI 64 0)) 128 0).
  { unfold e. destruct sg; [|exact (kv_zext c g p vs0 (cI 64 0) 64 128 0 (kv_cI c g p vs0 64 0) ltac:(lia))].
    eapply kv_eq; [|exact (kv_sext c g p vs0 (cI 64 0) 64 128 0 (kv_cI c g p vs0 64 0) ltac:(lia) (inr0 64 ltac:(lia)))]. reflexivity. }
  assert (XN : kv g p vs0 (E1 (OCast e (TInt (2 * 64))) (GetGp (a_rn i) false)) 128 (trunc 128 nx)).
  { unfold e. subst nx. destruct sg.
    - eapply kv_eq; [|exact (kv_sext c g p vs0 _ 64 128 _ F1 ltac:(lia) I1)]. unfold sext. rewrite S_small by assumption. reflexivity.
    - eapply kv_eq; [|exact (kv_zext c g p vs0 _ 64 128 _ F1 ltac:(lia))]. symmetry. apply trunc_small. apply (inr_le 64); [lia|assumption]. }
  assert (XM : kv g p vs0 (E1 (OCast e (TInt (2 * 64))) (GetGp (a_rm i) false)) 128 (trunc 128 mx)).
  { unfold e. subst mx. destruct sg.
    - eapply kv_eq; [|exact (kv_sext c g p vs0 _ 64 128 _ F2 ltac:(lia) I2)]. unfold sext. rewrite S_small by assumption. reflexivity.
    - eapply kv_eq; [|exact (kv_zext c g p vs0 _ 64 128 _ F2 ltac:(lia))]. symmetry. apply trunc_small. apply (inr_le 64); [lia|assumption]. }
  pose proof (kv_mul _ _ _ _ _ _ _ _ XN XM) as XP. rewrite trunc_mul_l, trunc_mul_r in XP by lia.
  pose proof (kv_add _ _ _ _ _ _ _ _ XB XP) as XS. rewrite Z.add_0_l, trunc_trunc in XS by lia.
  assert (C64 : kv g p vs0 (cI 128 64) 128 64) by (apply kv_cI).
  pose proof (kv_lshr _ _ _ _ _ _ _ _ XS C64 ltac:(lia)) as XL.
  eapply kv_eq; [|eapply kv_trunc; [exact XL|lia|apply div_inr; try lia; apply trunc_range; lia]].
  rewrite <- shr_val by lia. apply trunc_shiftr_trunc; lia.
Qed.

Lemma seq_map_iv : forall (f : Z -> Z) l, seq_ires (map (fun x => IV (f x)) l) = Ok (Some (map f l)).
Proof. induction l as [|x l IH]; [reflexivity|]. cbn [map seq_ires]. rewrite IH. reflexivity. Qed.
Lemma kv_rev : forall k, k = 16 \/ k = 32 ->
  kv g p vs0 (E1 (OCast CBitCast (TInt w)) (E1 (OIntr1 Bswap) (E1 (OCast CBitCast (TVec (w / k) (TInt k))) (GetGp (a_rn i) (a_w32 i))))) w
     (unlanes k (map (bswap_sem k) (lanes (w / k) k n))).
Proof.
  intros k Kk s rt A. pose proof (EN s rt A) as E. unfold val, ev in *. cbn [eval]. rewrite E. cbn [bind sem1].
  assert (CW : w = 32 \/ w = 64) by apply bits_cases.
  assert (C1 : forall z, cast_sem CBitCast (TVec (w/k) (TInt k)) (V (TInt w) z) = Ok (V (TVec (w/k) (TInt k)) z)).
  { intro z. unfold cast_sem. cbn [ty_of]. unfold cast_fun. cbn [ty_eqb]. destruct CW as [->| ->], Kk as [->| ->]; reflexivity. }
  assert (C2 : forall z, cast_sem CBitCast (TInt w) (V (TVec (w/k) (TInt k)) z) = Ok (V (TInt w) z)).
  { intro z. unfold cast_sem. cbn [ty_of]. unfold cast_fun. cbn [ty_eqb]. destruct CW as [->| ->], Kk as [->| ->]; reflexivity. }
  rewrite C1. cbn [bind intr1_rv int_shape]. unfold vec1. change (intr1_sem Bswap k) with (fun x => IV (bswap_sem k x)).
  rewrite seq_map_iv. cbn [of_lanes bind]. apply C2.
Qed.
Lemma rev_inr : forall k, k = 16 \/ k = 32 -> inr w (unlanes k (map (bswap_sem k) (lanes (w / k) k n))).
Proof.
  intros k Kk. assert (CW : w = 32 \/ w = 64) by apply bits_cases.
  assert (L : w = k * Z.of_nat (length (map (bswap_sem k) (lanes (w / k) k n)))).
  { rewrite map_length, lanes_length. destruct CW as [->| ->], Kk as [->| ->]; reflexivity. }
  rewrite L at 1. apply unlanes_inr; [lia|]. apply Forall_forall. intros x X. apply in_map_iff in X. destruct X as (y & <- & _).
  rewrite bswap_ok by lia. apply bswap_inr. lia.
Qed.

(** Addition and subtraction with carry. *)
Definition getf (f : kflag -> option bool) (x : kflag) : bool := match f x with Some b => b | None => false end.
Definition adc_flags (q : bool) (f : kflag -> option bool) : kflag -> option bool :=
  nzcv (getf f fN) (getf f fZ) (xorb (getf f fC) (q && (m =? 2^w - 1))) (xorb (getf f fV) (q && (m =? 2^(w-1) - 1))).
Lemma succ_flags : forall n0 m0, inr w n0 -> inr w m0 ->
  awc w n0 (trunc w (m0 + 1)) false = (trunc w (n0 + m0 + 1), nzcv (Z.testbit (trunc w (n0 + m0 + 1)) (w - 1)) (trunc w (n0 + m0 + 1) =? 0)
    (xorb (2^w <=? n0 + m0 + 1) (m0 =? 2^w - 1)) (xorb (s_out w (S_ w n0 + S_ w m0 + 1)) (m0 =? 2^(w-1) - 1))).
Proof.
  intros n0 m0 N0 M0. pose proof W as WW. rewrite awc_gen by (assumption || lia || apply trunc_range; lia). unfold bool_z. rewrite !Z.add_0_r.
  replace (trunc w (n0 + trunc w (m0 + 1))) with (trunc w (n0 + m0 + 1)) by (rewrite trunc_add_r by lia; f_equal; lia).
  f_equal. pose proof (pow2_succ w ltac:(lia)) as P2. pose proof (pow2_pos (w-1) ltac:(lia)) as P1.
  assert (M2 : 2 <= 2^(w-1)). { change 2 with (2^1) at 1. apply Z.pow_le_mono_r; destruct (bits_cases (a_w32 i)); unfold w in *; lia. }
  unfold inr in N0, M0.
  assert (T : trunc w (m0 + 1) = if m0 =? 2^w - 1 then 0 else m0 + 1).
  { destruct (Z.eqb_spec m0 (2^w - 1)) as [->|NE]; [|apply trunc_small; unfold inr; lia].
    replace (2^w - 1 + 1) with (2^w) by lia. unfold trunc. apply Z.mod_same. lia. }
  f_equal.
  - rewrite T. destruct (Z.eqb_spec m0 (2^w - 1)), (Z.leb_spec (2^w) (n0 + m0 + 1)); cbn [xorb]; lia.
  - rewrite !S_inr by (assumption || apply trunc_range; lia). rewrite T. unfold s_out. rewrite P2 in *. set (M := 2^(w-1)) in *. clearbody M.
    destruct (Z.eqb_spec m0 (2 * M - 1)), (Z.eqb_spec m0 (M - 1)), (Z.ltb_spec n0 M), (Z.ltb_spec m0 M); cbn [xorb]; try lia;
    destruct (Z.ltb_spec (m0 + 1) M); try lia; destruct (Z.ltb_spec 0 M); try lia; rewrite ?xorb_true_r, ?xorb_false_r; lia.
Qed.
Lemma pred_flags : forall n0 m0, inr w n0 -> inr w m0 ->
  awc w n0 (knot w (trunc w (m0 + 1))) true = (trunc w (n0 - m0 - 1), nzcv (Z.testbit (trunc w (n0 - m0 - 1)) (w - 1)) (trunc w (n0 - m0 - 1) =? 0)
    (xorb (m0 + 1 <=? n0) (m0 =? 2^w - 1)) (xorb (s_out w (S_ w n0 - S_ w m0 - 1)) (m0 =? 2^(w-1) - 1))).
Proof.
  intros n0 m0 N0 M0. pose proof W as WW. rewrite awc_sub by (assumption || lia || apply trunc_range; lia).
  replace (trunc w (n0 - trunc w (m0 + 1))) with (trunc w (n0 - m0 - 1)) by (rewrite trunc_sub_r by lia; f_equal; lia).
  f_equal. pose proof (pow2_succ w ltac:(lia)) as P2. pose proof (pow2_pos (w-1) ltac:(lia)) as P1.
  assert (M2 : 2 <= 2^(w-1)). { change 2 with (2^1) at 1. apply Z.pow_le_mono_r; destruct (bits_cases (a_w32 i)); unfold w in *; lia. }
  assert (T : trunc w (m0 + 1) = if m0 =? 2^w - 1 then 0 else m0 + 1).
  { unfold inr in *. destruct (Z.eqb_spec m0 (2^w - 1)) as [->|NE]; [|apply trunc_small; unfold inr; lia].
    replace (2^w - 1 + 1) with (2^w) by lia. unfold trunc. apply Z.mod_same. lia. }
  f_equal.
  - replace (n0 - m0 - 1) with (n0 - (m0 + 1)) by lia. rewrite <- trunc_sub_r by lia.
    rewrite trunc_sub_cases by (assumption || lia || apply trunc_range; lia). pose proof (trunc_range w (m0 + 1) ltac:(lia)) as [A B].
    unfold inr in *. destruct (Z.ltb_spec n0 (trunc w (m0 + 1))); lia.
  - rewrite T. unfold inr in *. destruct (Z.eqb_spec m0 (2^w - 1)), (Z.leb_spec (m0 + 1) n0); cbn [xorb]; lia.
  - rewrite <- !S_small by (assumption || apply trunc_range; lia). rewrite !S_inr by (assumption || apply trunc_range; lia). rewrite T.
    unfold s_out, inr in *. rewrite P2 in *. set (M := 2^(w-1)) in *. clearbody M.
    destruct (Z.eqb_spec m0 (2 * M - 1)), (Z.eqb_spec m0 (M - 1)), (Z.ltb_spec n0 M), (Z.ltb_spec m0 M); cbn [xorb]; try lia;
    destruct (Z.ltb_spec (m0 + 1) M); try lia; destruct (Z.ltb_spec 0 M); try lia; rewrite ?xorb_true_r, ?xorb_false_r; lia.
Qed.
Lemma adc_go : forall add : bool, (if add then a_op i = A_ADC else a_op i = A_SBC \/ a_op i = A_NGC) -> k_f g fC <> None ->
  forall rf, rf = awc w n (if add then m else knot w m) (fl g fC) ->
  lifts i g (kput i g (fst rf) (if a_flags i then Some (adc_flags (if add then fl g fC else negb (fl g fC)) (snd rf)) else None)).
Proof.
  intros add O FC rf Erf. pose proof W as WW. pose proof Ni as NI. pose proof Mi as MI.
  set (cb := if add then fl g fC else negb (fl g fC)).
  assert (LO : lift_op cfg i = Some (Some (true, [SLet 0 (GetGp (a_rn i) (a_w32 i));
     SLet 1 (eAdd (GetGp (a_rm i) (a_w32 i)) (eZExt w (if add then GetFlag CF else eNot 1 (GetFlag CF)))); SLet 2 (eBin (if add then Add else Sub) (vX 0) (vX 1))] ++
     SetGp (a_rd i) (vX 2) ++ (if a_flags i then (if add then FlagCalcAdd cfg w (vX 2) (vX 0) (vX 1) else FlagCalcSub w (vX 2) (vX 0) (vX 1)) else [])))).
  { destruct add; [|destruct O as [O|O]]; unfold lift_op; rewrite O; reflexivity. }
  eapply lifts_go; [exact LO|]. intro rt. rewrite <- !app_assoc. cbn [app].
  set (y := trunc w (m + b2z cb)). assert (Y : inr w y) by (apply trunc_range; lia).
  set (r := fst rf).
  assert (RV : ibin (if add then Add else Sub) w n y = IV r /\ inr w r).
  { unfold r. subst rf. unfold y, cb. destruct add; cbn [ibin]; rewrite awc_gen by (assumption || lia || apply knot_inr; assumption); cbn [fst]; split; try (apply trunc_range; lia); f_equal.
    - rewrite trunc_add_r by lia. f_equal. destruct (fl g fC); cbn; lia.
    - rewrite trunc_sub_r by lia. unfold trunc, knot. rewrite <- (Z.mod_add (n - _) 1) by (pose proof (pow2_pos w); lia). f_equal. destruct (fl g fC); cbn [b2z negb bool_z]; lia. }
  destruct RV as (IB & R0).
  eapply K_let; [apply kv_vals, EN|]. eapply K_let.
  { apply kv_vals. eapply kv_add with (y := b2z cb); [apply kv_gp, OM|]. eapply kv_zext with (w := 1); [|lia].
    pose proof (kv_flag c) as KF. unfold cb. destruct add; [exact (KF g _ _ fC FC)|]. apply kv_not1. exact (KF g _ _ fC FC). }
  eapply K_let.
  { apply kv_vals. eapply kv_bin; [apply kv_var; reflexivity|apply kv_var; reflexivity|exact IB]. }
  eapply K_setgp; [apply kv_var; reflexivity|lia|exact R0|auto|reflexivity|symmetry; apply trunc_small; exact R0|].
  match goal with |- K c _ ?p0 ?vs1 _ _ _ =>
    assert (V2 : forall g', kv g' p0 vs1 (vX 2) w r) by (intro; apply kv_var; reflexivity);
    assert (V0 : forall g', kv g' p0 vs1 (vX 0) w n) by (intro; apply kv_var; reflexivity);
    assert (V1 : forall g', kv g' p0 vs1 (vX 1) w y) by (intro; apply kv_var; reflexivity) end.
  assert (FE : adc_flags cb (snd rf) = if add then snd (awc w n y false) else snd (awc w n (knot w y) true)).
  { unfold adc_flags. subst rf. unfold y, cb. destruct add.
    - destruct (fl g fC) eqn:Ef; cbn [b2z].
      + rewrite succ_flags, (awc_gen w n m true) by (assumption || lia). reflexivity.
      + rewrite Z.add_0_r, (trunc_small w m MI), (awc_gen w n m false) by (assumption || lia). cbn [andb]. unfold getf, nzcv, snd. rewrite !xorb_false_r. reflexivity.
    - destruct (fl g fC) eqn:Ef; cbn [b2z negb].
      + rewrite Z.add_0_r, (trunc_small w m MI), (awc_gen w n (knot w m) true) by (assumption || lia || apply knot_inr; assumption). cbn [andb]. unfold getf, nzcv, snd. rewrite !xorb_false_r. reflexivity.
      + rewrite pred_flags, (awc_gen w n (knot w m) false) by (assumption || lia || apply knot_inr; assumption). cbn [andb snd].
        rewrite S_knot by (assumption || lia). unfold getf, nzcv, snd, bool_z.
        replace (trunc w (n + knot w m + 0)) with (trunc w (n - m - 1)).
        2:{ unfold trunc, knot. rewrite <- (Z.mod_add (n - m - 1) 1) by (pose proof (pow2_pos w); lia). f_equal. lia. }
        replace (2 ^ w <=? n + knot w m + 0) with (m + 1 <=? n) by (unfold knot; lia).
        replace (S_ w n + (- S_ w m - 1) + 0) with (S_ w n - S_ w m - 1) by lia. reflexivity. }
  destruct (a_flags i).
  - rewrite FE. destruct add.
    + eapply (K_flag_add c); [exact WW|exact NI|exact Y| |exact V0|exact V1|eapply kput_end; reflexivity].
      intro. eapply kv_eq; [|apply V2]. cbn [ibin] in IB. congruence.
    + eapply (K_flag_sub c); [exact WW|exact NI|exact Y| |exact V0|exact V1|eapply kput_end; reflexivity].
      intro. eapply kv_eq; [|apply V2]. cbn [ibin] in IB. congruence.
  - cbn [app]. eapply kput_end. reflexivity.
Qed.

Lemma adc_flags_same : forall q x y ci, q && ((m =? 2^w - 1) || (m =? 2^(w-1) - 1)) = false -> adc_flags q (snd (awc w x y ci)) = snd (awc w x y ci).
Proof.
  intros q x y ci Q. unfold adc_flags, awc, getf, nzcv, snd.
  replace (q && (m =? 2^w - 1)) with false by (destruct q, (m =? 2^w - 1), (m =? 2^(w-1) - 1); (reflexivity || discriminate Q)).
  replace (q && (m =? 2^(w-1) - 1)) with false by (destruct q, (m =? 2^w - 1), (m =? 2^(w-1) - 1); (reflexivity || discriminate Q)).
  rewrite !xorb_false_r. reflexivity.
Qed.
Lemma adc_ok : forall add : bool, (if add then a_op i = A_ADC else a_op i = A_SBC \/ a_op i = A_NGC) -> k_f g fC <> None ->
  a_flags i && (if add then fl g fC else negb (fl g fC)) && ((m =? 2^w - 1) || (m =? 2^(w-1) - 1)) = false ->
  forall rf, rf = awc w n (if add then m else knot w m) (fl g fC) ->
  lifts i g (kput i g (fst rf) (if a_flags i then Some (snd rf) else None)).
Proof.
  intros add O FC NC rf Erf. pose proof (adc_go add O FC rf Erf) as L. destruct (a_flags i); [|exact L].
  cbn [andb] in NC. rewrite Erf, adc_flags_same, <- Erf in L by exact NC. exact L.
Qed.

Ltac bin_tac E ok op inv :=
  let e := fresh "e" in let Re := fresh "Re" in let Ve := fresh "Ve" in let Ie := fresh "Ie" in let l := fresh "l" in let Hl := fresh "Hl" in
  destruct ok as (e & Re & Ve & Ie);
  destruct (bin_flags op e inv) as (l & Hl);
  [first [left; reflexivity | right; left; reflexivity | right; right; left; reflexivity
         | right; right; right; split; [assumption|left; reflexivity] | right; right; right; split; [assumption|right; reflexivity]]
  |eapply (bin_go op e inv l);
   [exact Hl|unfold lift_op; rewrite E; cbv zeta; rewrite Re, Hl; reflexivity|exact Ve|exact Ie|reflexivity|]].

Theorem dp_step : forall r fo, wf_dp i = true -> flags_known i g -> adc_corner i g = false -> kdp i g = Some (r, fo) ->
  lifts i g (kput i g r fo).
Proof.
  intros r fo WF FK NC S. pose proof W as WW. pose proof Ni as NI. pose proof Mi as MI. pose proof Ai as AI. pose proof Di as DI.
  unfold wf_dp in WF. rewrite WR in WF. cbn [andb] in WF. unfold flags_known, reads in FK.
  unfold adc_corner in NC. unfold kdp in S. cbv zeta in S. fold (bits (a_w32 i)) in S, NC. fold w in S, NC. fold n m a d in S. fold m in NC.
  destruct (a_op i) eqn:E; try discriminate S; cbv beta iota zeta in S.
  - (* ADR *) injection S as <- <-. eapply lifts_set; [lo E|]. assert (w = 64) as -> by (unfold w; destruct (a_w32 i); [discriminate WF|reflexivity]).
    rewrite PC. rewrite <- addr_pc_base_add. apply kv_pc.
  - (* ADRP *) injection S as <- <-. eapply lifts_set; [lo E|]. assert (W64 : w = 64) by (unfold w; destruct (a_w32 i); [discriminate WF|reflexivity]). rewrite W64.
    eapply kv_eq; [|apply kv_add; [apply kv_and; [apply kv_pc|apply kv_cI]|apply kv_cI]]. rewrite Z.add_0_r, <- PC. rewrite trunc_add_r by lia.
    f_equal. f_equal. assert (PI : inr 64 (k_pc g)) by (rewrite PC; apply addr_pc_base_inr).
    change (trunc 64 (-4096)) with (trunc 64 (Z.lnot (ones 12 * 2^0))). rewrite (clear_val 64) by (assumption || lia).
    change (2^0) with 1. rewrite Z.div_1_r, Z.mul_1_r. reflexivity.
  - (* AND imm *) bin_tac E imm_ok And false. injection S as <- <-. reflexivity.
  - (* ORR imm *) apply negb_true_iff in WF. bin_tac E imm_ok Or false. rewrite WF in S. injection S as <- <-. auto.
  - (* EOR imm *) apply negb_true_iff in WF. bin_tac E imm_ok Xor false. rewrite WF in S. injection S as <- <-. auto.
  - (* ADD imm *) bin_tac E imm_ok Add false. symmetry. apply (f_equal (fun o => match o with Some x => x | None => (r, fo) end) S).
  - (* MOV SP *) apply andb_prop in WF. destruct WF as [WF I0]. apply negb_true_iff in WF. apply Z.eqb_eq in I0.
    bin_tac E imm_ok Add false. fold n. rewrite WF, I0. change (U w 0) with (trunc w 0). rewrite (trunc_small w 0) by (apply inr0; lia).
    rewrite awc_add by (assumption || apply inr0 || lia; lia). cbn [fst]. rewrite Z.add_0_r. injection S as <- <-. reflexivity.
  - (* SUB imm *) bin_tac E imm_ok Sub false. symmetry. apply (f_equal (fun o => match o with Some x => x | None => (r, fo) end) S).
  - (* MOVK *) injection S as <- <-. eapply lifts_set; [lo E|]. rewrite !andb_true_iff in WF. destruct WF as [[[L1 L2] I1] I2]. fold w in L2.
    pose proof (kv_clear _ d (a_lsl i) 16 ED DI ltac:(lia) ltac:(lia) ltac:(lia)) as C. change (ones 16) with 65535 in C.
    assert (II : inr 16 (a_imm i)) by (unfold inr; change (2^16) with 65536; lia).
    eapply kv_eq; [|apply kv_or; [exact C|apply kv_cI]]. fold (trunc 16 (d / 2 ^ a_lsl i)).
    rewrite (trunc_small w (a_imm i * _)) by (apply (field_inr _ _ 16); (assumption || lia)).
    rewrite Z.lor_comm, (insert_val w) by (assumption || lia). symmetry. apply trunc_small. apply insert_inr; (assumption || lia).
  - (* MOV imm *) injection S as <- <-. eapply lifts_set; [lo E|]. apply kv_cI.
  - (* ASR imm *) injection S as <- <-. unfold imm_shift_ok in WF. fold w in WF.
    destruct (kv_Shift g p vs0 w _ SH_ASR n (a_imm i) EN NI) as (e & S1 & S2); [lia|lia|].
    eapply lifts_set; [unfold lift_op; rewrite E; fold w; rewrite S1; reflexivity|]. exact S2.
  - (* SBFIZ *) injection S as <- <-. unfold field_ok in WF. fold w in WF. pose proof (pow2_pos (a_lsb i) ltac:(lia)) as PL.
    eapply sext_go; [lo E|apply kv_move; [apply EN|lia|lia|lia]|lia| |].
    + replace (a_lsb i + a_width i - 1 + 1) with (a_lsb i + a_width i) by lia. apply (field_inr _ _ (a_width i)); try lia. apply trunc_range. lia.
    + replace (a_lsb i + a_width i - 1 + 1) with (a_lsb i + a_width i) by lia. rewrite S_scale by (lia || apply trunc_range; lia).
      f_equal. apply S_congr. apply trunc_trunc. lia.
  - (* SBFX *) injection S as <- <-. unfold field_ok in WF. fold w in WF.
    eapply sext_go; [lo E|apply kv_extract; [apply EN|lia|lia|lia]|lia| |].
    + replace (a_width i - 1 + 1) with (a_width i) by lia. apply trunc_range. lia.
    + replace (a_width i - 1 + 1) with (a_width i) by lia. apply S_congr. apply trunc_trunc. lia.
  - (* BFC *) injection S as <- <-. unfold field_ok in WF. fold w in WF. eapply lifts_set; [lo E|].
    eapply kv_eq; [|apply kv_clear; [apply ED|exact DI|lia|lia|lia]]. symmetry. apply trunc_small. apply clear_inr; (assumption || lia).
  - (* BFI *) injection S as <- <-. unfold field_ok in WF. fold w in WF. eapply lifts_set; [lo E|].
    eapply kv_eq; [|apply kv_or; [apply kv_move; [apply EN|lia|lia|lia]|apply kv_clear; [apply ED|exact DI|lia|lia|lia]]].
    rewrite (insert_val w) by (assumption || lia || apply trunc_range; lia). symmetry. apply trunc_small. apply insert_inr; (assumption || lia || apply trunc_range; lia).
  - (* BFXIL *) injection S as <- <-. unfold field_ok in WF. fold w in WF. eapply lifts_set; [lo E|].
    pose proof (kv_clear _ d 0 (a_width i) ED DI ltac:(lia) ltac:(lia) ltac:(lia)) as C. change (2^0) with 1 in C. rewrite Z.mul_1_r in C.
    pose proof (trunc_range (a_width i) (n / 2^a_lsb i) ltac:(lia)) as FI.
    eapply kv_eq; [|apply kv_or; [apply kv_extract; [apply EN|lia|lia|lia]|exact C]].
    pose proof (insert_val w d 0 (a_width i) (trunc (a_width i) (n / 2^a_lsb i)) ltac:(lia) ltac:(lia) ltac:(lia) ltac:(lia) DI FI) as IV.
    pose proof (insert_inr w d 0 (a_width i) (trunc (a_width i) (n / 2^a_lsb i)) ltac:(lia) ltac:(lia) ltac:(lia) ltac:(lia) DI FI) as II.
    change (2^0) with 1 in *. rewrite Z.div_1_r, ?Z.mul_1_r in *. rewrite IV. symmetry. apply trunc_small. exact II.
  - (* LSL imm *) injection S as <- <-. unfold imm_shift_ok in WF. fold w in WF.
    destruct (kv_Shift g p vs0 w _ SH_LSL n (a_imm i) EN NI) as (e & S1 & S2); [lia|lia|].
    eapply lifts_set; [unfold lift_op; rewrite E; fold w; rewrite S1; reflexivity|]. exact S2.
  - (* LSR imm *) injection S as <- <-. unfold imm_shift_ok in WF. fold w in WF.
    destruct (kv_Shift g p vs0 w _ SH_LSR n (a_imm i) EN NI) as (e & S1 & S2); [lia|lia|].
    eapply lifts_set; [unfold lift_op; rewrite E; fold w; rewrite S1; reflexivity|].
    eapply kv_eq; [|exact S2]. cbn [shift_reg]. symmetry. apply trunc_small. apply div_inr; (assumption || lia).
  - (* UBFIZ *) injection S as <- <-. unfold field_ok in WF. fold w in WF. eapply lifts_set; [lo E|].
    eapply kv_eq; [|apply kv_move; [apply EN|lia|lia|lia]]. symmetry. apply trunc_small. apply (field_inr _ _ (a_width i)); try lia. apply trunc_range. lia.
  - (* UBFX *) injection S as <- <-. unfold field_ok in WF. fold w in WF. eapply lifts_set; [lo E|].
    eapply kv_eq; [|apply kv_extract; [apply EN|lia|lia|lia]]. symmetry. apply trunc_small. apply (inr_le (a_width i)); [lia|]. apply trunc_range. lia.
  - (* EXTEND *) injection S as <- <-. unfold ext_fits in WF. fold w in WF.
    destruct (kv_Extend g p vs0 w (a_w32 i) _ n (a_ext i) 0 EN NI) as (e & S1 & S2); try (fold w; lia).
    eapply lifts_set; [unfold lift_op; rewrite E; rewrite S1; reflexivity|].
    eapply kv_eq; [|exact S2]. symmetry. apply trunc_small. apply extend_reg_inr. unfold w in *; lia.
  - (* EXTR *) injection S as <- <-. unfold imm_shift_ok in WF. fold w in WF. eapply lifts_set; [lo E|]. change U with trunc. rewrite <- extr_val by (assumption || lia).
    assert (W2 : forall z, 0 <= z <= w -> inr (2*w) z). { intros z Z0. split; [lia|]. pose proof (Z.pow_gt_lin_r 2 (2*w) ltac:(lia) ltac:(lia)). lia. }
    assert (XL : kv g p vs0 (eLShr (eOr (eShl (eZExt (2*w) (GetGp (a_rn i) (a_w32 i))) (cI (2*w) w)) (eZExt (2*w) (GetGp (a_rm i) (a_w32 i)))) (cI (2*w) (a_imm i))) (2*w)
      (Z.shiftr (Z.lor (trunc (2 * w) (Z.shiftl n w)) m) (a_imm i))).
    { eapply kv_eq; [|apply kv_lshr; [apply kv_or; [apply kv_shl; [eapply kv_zext; [apply EN|lia]|apply kv_c, W2; lia|lia]|eapply kv_zext; [apply EM|lia]]|apply kv_c, W2; lia|lia]].
      rewrite Z.shiftl_mul_pow2, Z.shiftr_div_pow2 by lia. reflexivity. }
    eapply kv_trunc; [apply kv_and; [exact XL|apply kv_cI]|lia|].
    apply land_inr_l; [lia|]. apply shiftr_inr; try lia. apply lor_inr; [lia|apply trunc_range; lia|apply (inr_le w); [lia|assumption]].
  - (* ROR imm *) injection S as <- <-. unfold imm_shift_ok in WF. fold w in WF.
    destruct (kv_Shift g p vs0 w _ SH_ROR n (a_imm i) EN NI) as (e & S1 & S2); [lia|lia|].
    eapply lifts_set; [unfold lift_op; rewrite E; fold w; rewrite S1; reflexivity|]. exact S2.
  - injection S as <- <-. exact (dp_udiv E).
  - injection S as <- <-. exact (dp_sdiv E).
  - (* LSLV *) injection S as <- <-. eapply lifts_set; [lo E|]. apply kv_shl; [apply EN|apply kv_mask; [apply EM|exact MI]|]. fold w. lia.
  - (* LSRV *) injection S as <- <-. eapply lifts_set; [lo E|].
    eapply kv_eq; [|apply kv_lshr; [apply EN|apply kv_mask; [apply EM|exact MI]|fold w; lia]]. symmetry. apply trunc_small. fold w. apply div_inr; (assumption || lia).
  - (* ASRV *) injection S as <- <-. eapply lifts_set; [lo E|]. apply kv_ashr; [apply EN|apply kv_mask; [apply EM|exact MI]| |exact NI]. fold w. lia.
  - (* RORV *) injection S as <- <-. eapply lifts_set; [lo E|]. change U with trunc. rewrite <- fshr_rot by (assumption || lia). apply kv_fsh; [apply EN|apply EN|]. apply kv_mask; [apply EM|exact MI].
  - (* RBIT *) injection S as <- <-. eapply lifts_set; [lo E|]. eapply kv_intr1; [apply EN|]. cbn [intr1_sem]. f_equal.
    rewrite bitrev_ok by lia. replace (w - Z.of_nat (Z.to_nat w)) with 0 by lia. change (2^0) with 1. rewrite Z.mul_1_r. symmetry. apply trunc_small.
    pose proof (rbit_inr (Z.to_nat w) n) as RI. rewrite Z2Nat.id in RI by lia. exact RI.
  - (* REV16 *) injection S as <- <-. eapply lifts_set; [lo E|]. eapply kv_eq; [|apply kv_rev; left; reflexivity].
    rewrite rev_bytes_sum by (first [apply bits_cases|left; reflexivity]). symmetry. apply trunc_small. apply rev_inr. left. reflexivity.
  - (* REV *) injection S as <- <-. eapply lifts_set; [lo E|]. eapply kv_intr1; [apply EN|]. cbn [intr1_sem]. f_equal.
    assert (BI : inr w (bswap_sem w n)) by (rewrite bswap_ok by (destruct (bits_cases (a_w32 i)); unfold w; lia); apply bswap_inr; destruct (bits_cases (a_w32 i)); unfold w; lia).
    assert (RE : rev_in (w / 8) w n = bswap_sem w n).
    { destruct (bits_cases (a_w32 i)) as [Q|Q]; fold w in Q; rewrite Q in *; change (32/8) with 4 in *; change (64/8) with 8 in *; rewrite rev_bytes_sum by lia.
      - change (Z.to_nat 4) with 4%nat. cbv iota. unfold lanes at 1. change (Z.to_nat (32/32)) with 1%nat. cbn [lanes_from map unlanes].
        assert (L0 : lane 32 n 0 = n) by (unfold lane; change (32 * 0) with 0; rewrite Z.shiftr_0_r; apply trunc_small; assumption). rewrite L0. lia.
      - reflexivity. }
    rewrite RE. symmetry. apply trunc_small. exact BI.
  - (* REV32 *) injection S as <- <-. eapply lifts_set; [lo E|]. eapply kv_eq; [|apply kv_rev; right; reflexivity].
    rewrite rev_bytes_sum by (first [apply bits_cases|right; left; reflexivity]). symmetry. apply trunc_small. apply rev_inr. right. reflexivity.
  - (* CLZ *) injection S as <- <-. eapply lifts_set; [lo E|]. eapply kv_intr1; [apply EN|]. change U with trunc.
    pose proof (clz_range (Z.to_nat w) n) as CR. rewrite (trunc_small w (clz _ _)) by (pose proof (Z.pow_gt_lin_r 2 w ltac:(lia) ltac:(lia)); unfold inr; lia).
    rewrite <- (Z2Nat.id w) at 1 by lia. apply ctlz_ok. rewrite Z2Nat.id by lia. exact NI.
  - (* CLS *) injection S as <- <-. eapply lifts_set; [lo E|].
    assert (XI : inr w (Z.lxor n (trunc w (Z.shiftr (sgn w n) (w - 1))))) by (apply lxor_inr; (assumption || lia || apply trunc_range; lia)).
    eapply kv_eq; [|apply kv_sub; [eapply kv_intr1; [apply kv_xor; [apply EN|apply kv_ashr; [apply EN|apply kv_c, pos_inr; lia|lia|exact NI]]|]|apply kv_c, pos_inr; destruct (bits_cases (a_w32 i)); unfold w; lia]].
    2:{ rewrite S_small, <- shr_val by (assumption || lia). rewrite <- (Z2Nat.id w) at 1 by lia. apply ctlz_ok. rewrite Z2Nat.id by lia. exact XI. }
    rewrite cls_val by (assumption || lia). reflexivity.
  - (* AND *) bin_tac E (sh_ok WF) And false. injection S as <- <-. reflexivity.
  - (* BIC *) bin_tac E (sh_ok WF) And true. injection S as <- <-. reflexivity.
  - (* ORR *) apply andb_prop in WF. destruct WF as [WF AF]. apply negb_true_iff in AF. bin_tac E (sh_ok WF) Or false. rewrite AF in S. injection S as <- <-. auto.
  - (* ORN *) apply andb_prop in WF. destruct WF as [WF AF]. apply negb_true_iff in AF. bin_tac E (sh_ok WF) Or true. rewrite AF in S. injection S as <- <-. auto.
  - (* MVN *) apply andb_prop in WF. destruct WF as [WF RZ]. apply andb_prop in WF. destruct WF as [WF AF]. apply negb_true_iff in AF.
    assert (N0 : n = 0). { unfold n. destruct (a_rn i); try discriminate RZ. unfold rdx. apply (trunc_small w 0). apply inr0. lia. }
    bin_tac E (sh_ok WF) Or true. split; [exact AF|]. fold n. rewrite N0, Z.lor_0_l. injection S as <- <-. split; [|reflexivity].
    apply trunc_small. apply knot_inr. assumption.
  - (* MOV reg *) injection S as <- <-. eapply lifts_set; [lo E|]. rewrite trunc_small by assumption. apply EM.
  - (* EOR *) apply andb_prop in WF. destruct WF as [WF AF]. apply negb_true_iff in AF. bin_tac E (sh_ok WF) Xor false. rewrite AF in S. injection S as <- <-. auto.
  - (* EON *) apply andb_prop in WF. destruct WF as [WF AF]. apply negb_true_iff in AF. bin_tac E (sh_ok WF) Xor true. rewrite AF in S. injection S as <- <-. auto.
  - (* ADD *) bin_tac E (sh_ok WF) Add false. symmetry. apply (f_equal (fun o => match o with Some x => x | None => (r, fo) end) S).
  - (* SUB *) bin_tac E (sh_ok WF) Sub false. symmetry. apply (f_equal (fun o => match o with Some x => x | None => (r, fo) end) S).
  - (* NEG *) apply andb_prop in WF. destruct WF as [WF RZ].
    assert (N0 : n = 0). { unfold n. destruct (a_rn i); try discriminate RZ. unfold rdx. apply (trunc_small w 0). apply inr0. lia. }
    bin_tac E (sh_ok WF) Sub false. fold n. rewrite N0. symmetry. apply (f_equal (fun o => match o with Some x => x | None => (r, fo) end) S).
  - (* ADD ext *) apply andb_prop in WF. destruct WF as [W1 W2]. bin_tac E (ex_ok W1 W2) Add false. symmetry. apply (f_equal (fun o => match o with Some x => x | None => (r, fo) end) S).
  - (* SUB ext *) apply andb_prop in WF. destruct WF as [W1 W2]. bin_tac E (ex_ok W1 W2) Sub false. symmetry. apply (f_equal (fun o => match o with Some x => x | None => (r, fo) end) S).
  - (* ADC *) pose proof (adc_ok true E (FK fC (or_introl eq_refl)) NC _ eq_refl) as L.
    apply (f_equal (fun o => match o with Some x => x | None => (r, fo) end)) in S. cbv beta iota in S.
    replace r with (fst (r, fo)) by reflexivity. replace fo with (snd (r, fo)) at 2 by reflexivity. rewrite <- S. exact L.
  - (* SBC *) pose proof (adc_ok false (or_introl E) (FK fC (or_introl eq_refl)) NC _ eq_refl) as L.
    apply (f_equal (fun o => match o with Some x => x | None => (r, fo) end)) in S. cbv beta iota in S.
    replace r with (fst (r, fo)) by reflexivity. replace fo with (snd (r, fo)) at 2 by reflexivity. rewrite <- S. exact L.
  - (* NGC *) pose proof (adc_ok false (or_intror E) (FK fC (or_introl eq_refl)) NC _ eq_refl) as L.
    assert (N0 : n = 0). { unfold n. destruct (a_rn i); try discriminate WF. unfold rdx. apply (trunc_small w 0). apply inr0. lia. }
    rewrite N0 in L. apply (f_equal (fun o => match o with Some x => x | None => (r, fo) end)) in S. cbv beta iota in S.
    replace r with (fst (r, fo)) by reflexivity. replace fo with (snd (r, fo)) at 2 by reflexivity. rewrite <- S. exact L.
  - (* CSEL *) injection S as <- <-. eapply dp_sel; [lo E|exact WF|exact FK|apply EN|apply EM|]. destruct (cond_holds _ _); symmetry; apply trunc_small; assumption.
  - (* CSINC *) injection S as <- <-. eapply dp_sel; [lo E|exact WF|exact FK|apply EN|apply kv_add; [apply EM|apply kv_c, pos_inr; destruct (bits_cases (a_w32 i)); unfold w; lia]|].
    destruct (cond_holds _ _); [symmetry; apply trunc_small; assumption|reflexivity].
  - (* CINC *) injection S as <- <-. eapply dp_sel; [lo E|exact WF|exact FK|apply kv_add; [apply EN|apply kv_c, pos_inr; destruct (bits_cases (a_w32 i)); unfold w; lia]|apply EN|].
    destruct (cond_holds _ _); [reflexivity|symmetry; apply trunc_small; assumption].
  - (* CSET *) injection S as <- <-. unfold cond_ok in WF. destruct (kv_IsTrue g p vs0 (a_cond i) ltac:(lia) FK) as (k & K1 & K2).
    eapply lifts_set; [unfold lift_op; rewrite E, K1; reflexivity|]. eapply kv_eq; [|eapply kv_zext; [exact K2|lia]].
    destruct (cond_holds _ _); cbn [b2z]; symmetry; apply trunc_small; apply pos_inr; destruct (bits_cases (a_w32 i)); unfold w; lia.
  - (* CSINV *) injection S as <- <-. eapply dp_sel; [lo E|exact WF|exact FK|apply EN|apply kv_notw; [lia|exact MI|apply EM]|].
    destruct (cond_holds _ _); symmetry; apply trunc_small; [assumption|apply knot_inr; assumption].
  - (* CINV *) injection S as <- <-. eapply dp_sel; [lo E|exact WF|exact FK|apply kv_notw; [lia|exact NI|apply EN]|apply EN|].
    destruct (cond_holds _ _); symmetry; apply trunc_small; [apply knot_inr; assumption|assumption].
  - (* CSETM *) injection S as <- <-. eapply dp_sel; [lo E|exact WF|exact FK|apply kv_cI|apply kv_cI|]. destruct (cond_holds _ _); reflexivity.
  - (* CSNEG *) injection S as <- <-. eapply dp_sel; [lo E|exact WF|exact FK|apply EN|apply kv_sub; [apply kv_c, inr0; lia|apply EM]|].
    destruct (cond_holds _ _); [symmetry; apply trunc_small; assumption|reflexivity].
  - (* CNEG *) injection S as <- <-. eapply dp_sel; [lo E|exact WF|exact FK|apply kv_sub; [apply kv_c, inr0; lia|apply EN]|apply EN|].
    destruct (cond_holds _ _); [reflexivity|symmetry; apply trunc_small; assumption].
  - (* MUL *) injection S as <- <-. eapply lifts_set; [lo E|]. apply kv_mul; [apply EN|apply EM].
  - (* MADD *) injection S as <- <-. eapply lifts_set; [lo E|]. eapply kv_eq; [|apply kv_add; [apply EA|apply kv_mul; [apply EN|apply EM]]]. apply trunc_add_r. lia.
  - (* MSUB *) injection S as <- <-. eapply lifts_set; [lo E|]. eapply kv_eq; [|apply kv_sub; [apply EA|apply kv_mul; [apply EN|apply EM]]]. apply trunc_sub_r. lia.
  - (* MNEG *) injection S as <- <-. eapply lifts_set; [lo E|]. eapply kv_eq; [|apply kv_sub; [apply EA|apply kv_mul; [apply EN|apply EM]]].
    assert (a = 0) as ->. { unfold a. destruct (a_ra i); try discriminate WF. unfold rdx. apply (trunc_small w 0). apply inr0. lia. }
    rewrite trunc_sub_r by lia. reflexivity.
  - (* SMADDL *) injection S as <- <-. apply negb_true_iff in WF. pose proof (kv_gp c g p vs0 (a_ra i) false OA) as EB. cbn [bits] in EB.
    eapply lifts_set; [lo E|]. exact (kv_long _ Add _ true _ _ WF EB (rdx_inr g (a_ra i) 64 ltac:(lia)) (or_introl eq_refl) eq_refl eq_refl).
  - (* SMULL *) injection S as <- <-. apply andb_prop in WF. destruct WF as [WF RZ]. apply negb_true_iff in WF.
    assert (EB : kv g p vs0 (GetGp (a_ra i) false) 64 0) by (destruct (a_ra i); try discriminate RZ; apply kv_cI).
    eapply lifts_set; [lo E|]. exact (kv_long _ Add _ true _ _ WF EB (inr0 64 ltac:(lia)) (or_introl eq_refl) eq_refl eq_refl).
  - (* SMSUBL *) injection S as <- <-. apply negb_true_iff in WF. pose proof (kv_gp c g p vs0 (a_ra i) false OA) as EB. cbn [bits] in EB.
    eapply lifts_set; [lo E|]. exact (kv_long _ Sub _ true _ _ WF EB (rdx_inr g (a_ra i) 64 ltac:(lia)) (or_intror eq_refl) eq_refl eq_refl).
  - (* SMNEGL *) injection S as <- <-. apply andb_prop in WF. destruct WF as [WF RZ]. apply negb_true_iff in WF.
    assert (EB : kv g p vs0 (GetGp (a_ra i) false) 64 0) by (destruct (a_ra i); try discriminate RZ; apply kv_cI).
    eapply lifts_set; [lo E|]. exact (kv_long _ Sub _ true _ _ WF EB (inr0 64 ltac:(lia)) (or_intror eq_refl) eq_refl eq_refl).
  - (* SMULH *) injection S as <- <-. apply negb_true_iff in WF. eapply lifts_set; [lo E|]. exact (kv_mulh true _ _ WF eq_refl eq_refl).
  - (* UMADDL *) injection S as <- <-. apply negb_true_iff in WF. pose proof (kv_gp c g p vs0 (a_ra i) false OA) as EB. cbn [bits] in EB.
    eapply lifts_set; [lo E|]. exact (kv_long _ Add _ false _ _ WF EB (rdx_inr g (a_ra i) 64 ltac:(lia)) (or_introl eq_refl) eq_refl eq_refl).
  - (* UMULL *) injection S as <- <-. apply andb_prop in WF. destruct WF as [WF RZ]. apply negb_true_iff in WF.
    assert (EB : kv g p vs0 (GetGp (a_ra i) false) 64 0) by (destruct (a_ra i); try discriminate RZ; apply kv_cI).
    eapply lifts_set; [lo E|]. exact (kv_long _ Add _ false _ _ WF EB (inr0 64 ltac:(lia)) (or_introl eq_refl) eq_refl eq_refl).
  - (* UMSUBL *) injection S as <- <-. apply negb_true_iff in WF. pose proof (kv_gp c g p vs0 (a_ra i) false OA) as EB. cbn [bits] in EB.
    eapply lifts_set; [lo E|]. exact (kv_long _ Sub _ false _ _ WF EB (rdx_inr g (a_ra i) 64 ltac:(lia)) (or_intror eq_refl) eq_refl eq_refl).
  - (* UMNEGL *) injection S as <- <-. apply andb_prop in WF. destruct WF as [WF RZ]. apply negb_true_iff in WF.
    assert (EB : kv g p vs0 (GetGp (a_ra i) false) 64 0) by (destruct (a_ra i); try discriminate RZ; apply kv_cI).
    eapply lifts_set; [lo E|]. exact (kv_long _ Sub _ false _ _ WF EB (inr0 64 ltac:(lia)) (or_intror eq_refl) eq_refl eq_refl).
  - (* UMULH *) injection S as <- <-. apply negb_true_iff in WF. eapply lifts_set; [lo E|]. exact (kv_mulh false _ _ WF eq_refl eq_refl).
Qed.
End Inst.
End Dp.
