(** The floating-point instructions of the RV64 lifter that only move bits. *)

From Coq Require Import ZArith Lia ZifyBool List Bool.
From Verif Require Import Bits IR Facet Dsl Rv64 Rv64Spec Rv64Sim Rv64Arith Rv64Int Rv64Mem.
Import ListNotations.
Open Scope Z_scope.
Ltac Zify.zify_post_hook ::= Z.div_mod_to_equations.

(** Sign manipulation on bit patterns. *)
Lemma sign_bit : forall w x, 0 < w -> inr w x -> Z.land x (2^(w-1)) = signof w x * 2^(w-1) /\ 0 <= signof w x <= 1.
Proof.
  intros w x W [X1 X2]. pose proof (pow2_pos (w-1) ltac:(lia)) as P. pose proof (pow2_succ w W) as D. unfold signof.
  assert (B : 0 <= x / 2^(w-1) <= 1).
  { split; [apply Z.div_pos; lia|]. assert (x / 2^(w-1) < 2); [|lia]. apply Z.div_lt_upper_bound; lia. }
  split; [|exact B].
  assert (T : Z.testbit x (w-1) = (x / 2^(w-1) =? 1)).
  { pose proof (Z.testbit_spec' x (w-1) ltac:(lia)) as Q. rewrite Z.mod_small in Q by lia.
    destruct (Z.testbit x (w-1)); cbn [Z.b2z] in Q; lia. }
  apply Z.bits_inj'. intros n N. rewrite Z.land_spec, testbit_pow2 by lia.
  destruct (w - 1 =? n) eqn:E.
  - apply Z.eqb_eq in E. subst n. rewrite andb_true_r, T.
    replace (Z.testbit (x / 2^(w-1) * 2^(w-1)) (w-1)) with (Z.testbit (x / 2^(w-1)) 0).
    + destruct (x / 2^(w-1) =? 1) eqn:Q.
      * apply Z.eqb_eq in Q. rewrite Q. reflexivity.
      * assert (Q0 : x / 2^(w-1) = 0) by lia. rewrite Q0. reflexivity.
    + rewrite Z.mul_pow2_bits by lia. f_equal. lia.
  - rewrite andb_false_r. rewrite Z.mul_pow2_bits by lia.
    destruct (x / 2^(w-1) =? 1) eqn:Q.
    + apply Z.eqb_eq in Q. rewrite Q. destruct (n <? w-1) eqn:L; [rewrite Z.testbit_neg_r by lia; reflexivity|].
      symmetry. change 1 with (2^0). rewrite testbit_pow2 by lia. lia.
    + assert (Q0 : x / 2^(w-1) = 0) by lia. rewrite Q0, Z.bits_0. reflexivity.
Qed.
(** Adding a sign bit to a magnitude is a bitwise or / xor. *)
Lemma mag_sign : forall w m s, 0 < w -> 0 <= m < 2^(w-1) -> s = 0 \/ s = 1 ->
  Z.lxor m (s * 2^(w-1)) = m + s * 2^(w-1) /\ Z.lor m (s * 2^(w-1)) = m + s * 2^(w-1).
Proof.
  intros w m s W M S.
  assert (L : Z.land m (s * 2^(w-1)) = 0).
  { destruct S as [-> | ->]; [apply Z.land_0_r|]. rewrite Z.mul_1_l. apply Z.bits_inj'. intros n N.
    rewrite Z.land_spec, testbit_pow2, Z.bits_0 by lia. destruct (w - 1 =? n) eqn:E; [|apply andb_false_r].
    rewrite (testbit_inr_high (w-1) m n) by (try exact M; lia). reflexivity. }
  split.
  - symmetry. apply Z.add_nocarry_lxor. exact L.
  - rewrite <- Z.lxor_lor by exact L. symmetry. apply Z.add_nocarry_lxor. exact L.
Qed.
Lemma mag_split : forall w x, 0 < w -> inr w x ->
  x = x mod 2^(w-1) + signof w x * 2^(w-1) /\ 0 <= x mod 2^(w-1) < 2^(w-1).
Proof.
  intros w x W X. pose proof (pow2_pos (w-1) ltac:(lia)) as P. unfold signof. split.
  - pose proof (Z.div_mod x (2^(w-1)) ltac:(lia)). lia.
  - apply Z.mod_pos_bound. exact P.
Qed.
(** The three emitted bit expressions. *)
Lemma fsgn_val : forall w x y keep zero, 0 < w -> inr w x -> inr w y ->
  Z.lxor (if negb keep && zero then Z.land x (2^(w-1) - 1)
          else if negb keep && negb zero then Z.lor x (2^(w-1)) else x) (Z.land y (2^(w-1)))
  = isa_fsgn w x y (if keep then 2 else if zero then 0 else 1).
Proof.
  intros w x y keep zero W X Y.
  destruct (sign_bit w y W Y) as [SY BY]. destruct (sign_bit w x W X) as [_ BX].
  destruct (mag_split w x W X) as [MX RX].
  rewrite SY. unfold isa_fsgn, with_sign. set (m := x mod 2^(w-1)) in *. set (sx := signof w x) in *. set (sy := signof w y) in *.
  destruct keep; cbn [negb andb].
  - change (2 =? 0) with false. change (2 =? 1) with false. cbv iota.
    rewrite MX. destruct (mag_sign w m sx W RX ltac:(lia)) as [E1 _]. rewrite <- E1.
    rewrite Z.lxor_assoc.
    assert (E2 : Z.lxor (sx * 2^(w-1)) (sy * 2^(w-1)) = ((sx + sy) mod 2) * 2^(w-1)).
    { assert (C : (sx = 0 \/ sx = 1) /\ (sy = 0 \/ sy = 1)) by lia. destruct C as [[-> | ->] [-> | ->]]; 
      rewrite ?Z.mul_0_l, ?Z.mul_1_l, ?Z.lxor_0_l, ?Z.lxor_0_r, ?Z.lxor_nilpotent; cbn; lia. }
    rewrite E2. apply mag_sign; [assumption|assumption|]. pose proof (Z.mod_pos_bound (sx+sy) 2 ltac:(lia)). lia.
  - destruct zero; cbn [negb].
    + change (0 =? 0) with true. cbv iota. rewrite land_mask by lia. fold m. apply mag_sign; [assumption|assumption|lia].
    + change (1 =? 0) with false. change (1 =? 1) with true. cbv iota.
      assert (E1 : Z.lor x (2^(w-1)) = m + 1 * 2^(w-1)).
      { rewrite MX. destruct (mag_sign w m sx W RX ltac:(lia)) as [_ E]. rewrite <- E.
        rewrite <- Z.lor_assoc. assert (E2 : Z.lor (sx * 2^(w-1)) (2^(w-1)) = 1 * 2^(w-1)).
        { assert (C : sx = 0 \/ sx = 1) by lia. destruct C as [-> | ->]; rewrite ?Z.mul_0_l, ?Z.mul_1_l, ?Z.lor_0_l, ?Z.lor_diag; reflexivity. }
        rewrite E2. apply mag_sign; [assumption|assumption|lia]. }
      rewrite E1. destruct (mag_sign w m 1 W RX ltac:(lia)) as [E _]. rewrite <- E. rewrite Z.lxor_assoc.
      assert (E2 : Z.lxor (1 * 2^(w-1)) (sy * 2^(w-1)) = (1 - sy) * 2^(w-1)).
      { assert (C : sy = 0 \/ sy = 1) by lia. destruct C as [-> | ->]; rewrite ?Z.mul_0_l, ?Z.mul_1_l, ?Z.lxor_0_r, ?Z.lxor_nilpotent; lia. }
      rewrite E2. apply mag_sign; [assumption|assumption|lia].
Qed.

(** ** fclass *)
(** The value the emitted code computes is the class index. *)
Definition fclass_emit (w mant x : Z) : Z :=
  let expmsk := (2^(w-1-mant) - 1) * 2^mant in
  let sign := Z.land x (2^(w-1)) in
  let ex := Z.land x expmsk in
  let m := Z.land x (2^mant - 1) in
  let res := if ex =? 0 then Z.lor (b2z (negb (m =? 0))) 4 else Z.lor (b2z (ex =? expmsk)) 6 in
  let res2 := if sign =? 0 then res else Z.lxor res 7 in
  if (ex =? expmsk) && negb (m =? 0) then Z.lor (m / 2^(mant-1)) 8 else res2.

Lemma fclass_ok : forall w mant x, 0 < mant -> mant < w - 1 -> inr w x -> fclass_emit w mant x = fclass w mant x.
Proof.
  intros w mant x M W X. unfold fclass_emit, fclass.
  destruct (sign_bit w x ltac:(lia) X) as [SX BX].
  set (sg := x / 2^(w-1)) in *. fold (signof w x) in sg. 
  pose proof (pow2_pos mant ltac:(lia)) as PM. pose proof (pow2_pos (w-1) ltac:(lia)) as PW.
  pose proof (pow2_pos (w-1-mant) ltac:(lia)) as PE.
  set (ex := (x / 2^mant) mod 2^(w-1-mant)).
  assert (EX : Z.land x ((2^(w-1-mant) - 1) * 2^mant) = ex * 2^mant).
  { apply Z.bits_inj'. intros n N. rewrite Z.land_spec, !Z.mul_pow2_bits by lia.
    destruct (n <? mant) eqn:L.
    - rewrite !(Z.testbit_neg_r _ (n - mant)) by lia. apply andb_false_r.
    - subst ex. change ((x / 2^mant) mod 2^(w-1-mant)) with (trunc (w-1-mant) (x / 2^mant)).
      rewrite testbit_trunc by lia. rewrite <- (Z.shiftr_div_pow2 x mant), Z.shiftr_spec by lia.
      replace (n - mant + mant) with n by lia.
      replace (2^(w-1-mant) - 1) with (Z.ones (w-1-mant)) by (rewrite Z.ones_equiv; lia).
      rewrite testbit_ones by lia. apply andb_comm. }
  assert (EB : 0 <= ex < 2^(w-1-mant)) by (apply Z.mod_pos_bound; lia).
  rewrite SX, EX, land_mask by lia. set (m := x mod 2^mant).
  assert (MB : 0 <= m < 2^mant) by (apply Z.mod_pos_bound; lia).
  assert (E0 : (ex * 2^mant =? 0) = (ex =? 0)).
  { destruct (ex =? 0) eqn:Q; [apply Z.eqb_eq in Q; rewrite Q; reflexivity|]. apply Z.eqb_neq. apply Z.eqb_neq in Q. nia. }
  assert (E1 : (ex * 2^mant =? (2^(w-1-mant) - 1) * 2^mant) = (ex =? 2^(w-1-mant) - 1)).
  { destruct (ex =? 2^(w-1-mant) - 1) eqn:Q; [apply Z.eqb_eq in Q; rewrite Q; apply Z.eqb_refl|]. apply Z.eqb_neq. apply Z.eqb_neq in Q. nia. }
  rewrite E0, E1. fold sg in SX, BX |- *.
  assert (E2 : (sg * 2^(w-1) =? 0) = (sg =? 0)).
  { destruct (sg =? 0) eqn:Q; [apply Z.eqb_eq in Q; rewrite Q; reflexivity|]. apply Z.eqb_neq. apply Z.eqb_neq in Q. nia. }
  rewrite E2.
  assert (EM : 2 <= 2^(w-1-mant)). { change 2 with (2^1) at 1. apply Z.pow_le_mono_r; lia. }
  assert (NQ : 0 <= m / 2^(mant-1) <= 1).
  { pose proof (pow2_pos (mant-1) ltac:(lia)). pose proof (pow2_succ mant M). split; [apply Z.div_pos; lia|].
    assert (m / 2^(mant-1) < 2); [|lia]. apply Z.div_lt_upper_bound; lia. }
  destruct (ex =? 2^(w-1-mant) - 1) eqn:QE.
  - assert (Q0 : (ex =? 0) = false) by lia. rewrite Q0. cbn [b2z andb].
    destruct (m =? 0) eqn:QM; cbn [negb].
    + destruct (sg =? 0); reflexivity.
    + destruct (m / 2^(mant-1) =? 0) eqn:QQ; [apply Z.eqb_eq in QQ; rewrite QQ; reflexivity|].
      assert (Q1 : m / 2^(mant-1) = 1) by lia. rewrite Q1. reflexivity.
  - cbn [andb b2z]. destruct (ex =? 0); [destruct (m =? 0), (sg =? 0); reflexivity|destruct (sg =? 0); reflexivity].
Qed.

Section Fp.
Context `{FpuOps}.
Variable c : cenv.
Hypothesis HA : c_arch c = RV64.
Hypothesis GB : gbase_ok c.
Variable cfg : lcfg.
Variable kc : areg -> konst.
Variable i : rvinst.
Variable s : st.
Variable g : gst.
Hypothesis R : rel s g.
Hypothesis KC : kc_sound kc s.
Hypothesis PC : g_pc g = addr_pc_base c (r_start i).
Let a := rx g (r_rs1 i).
Let imm := r_imm i.
Let s0 := at_start i s.
Let f1 := g_f g (r_rs1 i).
Let f2 := g_f g (r_rs2 i).

Lemma FR0 : rel s0 g. Proof. apply rel_at_start. assumption. Qed.
Lemma F1 : inr 64 f1. Proof. apply R. Qed.
Lemma F2 : inr 64 f2. Proof. apply R. Qed.

(** The state after StoreFp. *)
Definition fp_written (t : st) (rd z : Z) : st := with_reg t (upd_reg (s_reg t) (VEC rd) (Some z)).
Lemma run_StoreFp : forall t rd e ty z, ev c t e = Ok (V ty z) -> inr 64 z ->
  run c t (StoreFp rd e) = Ok (fp_written t rd z).
Proof.
  intros t rd e ty z E I. unfold StoreFp. cbn [run run1]. rewrite E. cbn [bind]. unfold native_size, native_facet.
  rewrite HA. cbn [set_cell facet_size]. rewrite trunc_small by assumption. reflexivity.
Qed.
Lemma rel_fp_written : forall t gt rd z, rel t gt -> inr 64 z -> rel (fp_written t rd z) (wf gt rd z).
Proof.
  intros t gt rd z [A B C D M] I. split; cbn [fp_written wf with_reg s_reg s_mem g_x g_f g_mem]; try assumption.
  - intros n. unfold upd_reg. cbn [areg_eqb]. rewrite (Z.eqb_sym n rd). destruct (rd =? n); [reflexivity|apply C].
  - intros n. destruct (n =? rd); [assumption|apply D].
Qed.
Lemma fp_goal : forall e ty z v,
  lift_mnem c cfg kc i = plain (StoreFp (r_rd i) e) i -> ev c s0 e = Ok (V ty z) -> inr 64 z -> z = v ->
  lifts_to c cfg kc i s (wpc (wf g (r_rd i) v) (g_pc g + r_len i)) (PcConst (r_end i)).
Proof.
  intros e ty z v L E I <-.
  eapply plain_gen; [exact PC|exact L|eapply run_StoreFp; eassumption|apply rel_fp_written; [apply FR0|assumption]|reflexivity|reflexivity].
Qed.

(** Evaluation of LiftFsgn's operands. *)
Lemma ev_bits : forall n f w, f = F32 /\ w = 32 \/ f = F64 /\ w = 64 ->
  val c s0 (eBitCast (TInt w) (LoadFp n f)) w (trunc w (g_f g n)).
Proof.
  intros n f w C. assert (C' : f = F32 \/ f = F64) by tauto.
  pose proof (ev_LoadFp c s0 g n f FR0 C') as E. unfold val, ev, eBitCast in *. cbn [eval]. rewrite E.
  destruct C as [[-> ->]|[-> ->]]; reflexivity.
Qed.
Lemma fsgn_goal : forall f w keep zero mode, f = F32 /\ w = 32 \/ f = F64 /\ w = 64 ->
  lift_mnem c cfg kc i = plain (LiftFsgn i f keep zero) i ->
  mode = (if keep then 2 else if zero then 0 else 1) ->
  lifts_to c cfg kc i s (wpc (wf g (r_rd i) (isa_fsgn w (trunc w f1) (trunc w f2) mode)) (g_pc g + r_len i)) (PcConst (r_end i)).
Proof.
  intros f w keep zero mode C L MD.
  assert (W : 0 < w <= 64) by (destruct C as [[_ ->]|[_ ->]]; lia).
  assert (I1 : inr w (trunc w f1)) by (apply trunc_range; lia).
  assert (I2 : inr w (trunc w f2)) by (apply trunc_range; lia).
  assert (P2 : trunc w (2^(w-1)) = 2^(w-1)) by (apply trunc_small, pow2_inr; lia).
  assert (PM : trunc w (2^(w-1) - 1) = 2^(w-1) - 1).
  { apply trunc_small. pose proof (pow2_pos (w-1) ltac:(lia)). pose proof (pow2_succ w ltac:(lia)). split; lia. }
  set (z := isa_fsgn w (trunc w f1) (trunc w f2) mode).
  assert (VX : val c s0 (eXor (if negb keep && zero then eAnd (eBitCast (TInt w) (LoadFp (r_rs1 i) f)) (cI w (2^(w-1) - 1))
              else if negb keep && negb zero then eOr (eBitCast (TInt w) (LoadFp (r_rs1 i) f)) (cI w (2^(w-1)))
              else eBitCast (TInt w) (LoadFp (r_rs1 i) f)) (eAnd (eBitCast (TInt w) (LoadFp (r_rs2 i) f)) (cI w (2^(w-1))))) w z).
  { subst z. rewrite MD, <- fsgn_val by (lia || assumption).
    eapply val_bin; [|eapply val_bin; [apply ev_bits; exact C|apply val_cI|rewrite P2; reflexivity]|reflexivity].
    destruct keep; cbn [negb andb]; [apply ev_bits; exact C|]. destruct zero; cbn [negb].
    - eapply val_bin; [apply ev_bits; exact C|apply val_cI|rewrite PM; reflexivity].
    - eapply val_bin; [apply ev_bits; exact C|apply val_cI|rewrite P2; reflexivity]. }
  assert (ZI : inr w z).
  { subst z. rewrite MD, <- fsgn_val by (lia || assumption). apply lxor_inr; [lia| |apply land_inr_l; [lia|assumption]].
    destruct keep; cbn [negb andb]; [assumption|]. destruct zero; cbn [negb]; [apply land_inr_l; [lia|assumption]|].
    apply lor_inr; [lia|assumption|apply pow2_inr; lia]. }
  eapply (fp_goal _ (facet_type f) z).
  - rewrite L. unfold LiftFsgn. destruct C as [[-> ->]|[-> ->]]; reflexivity.
  - unfold val, ev in *. unfold eBitCast. cbn [eval]. destruct C as [[-> ->]|[-> ->]]; unfold eBitCast in VX; rewrite VX; reflexivity.
  - apply (inr_le w); [lia|assumption].
  - reflexivity.
Qed.

Lemma fpd_correct : forall g', isa_fpd i g = Some g' ->
  lifts_to c cfg kc i s (wpc g' (g_pc g + r_len i)) (PcConst (r_end i)).
Proof.
  intros g' E. pose proof (ev_Addr c kc s0 g i FR0 KC GB) as EA. fold a imm in EA.
  unfold isa_fpd in E. fold f1 f2 a imm in E.
  destruct (r_mn i) eqn:M; try discriminate E; injection E as <-.
  - (* FSW *) eapply store_goal; [exact R|exact PC|unfold lift_mnem; rewrite M; reflexivity
      |apply (ev_LoadFp c s0 g (r_rs2 i) F32 FR0); tauto|exact EA|reflexivity|cbn; lia|].
    intros k K. apply byte_trunc; cbn [facet_size]; lia.
  - (* FMVXW *) eapply plain_gp32; [unfold lift_mnem; rewrite M; reflexivity|exact R|apply ev_bits; tauto|reflexivity|exact PC].
  - (* FLD *) eapply (plain_gen c cfg kc i s g PC _ (fp_written (with_var s0 (upd_var (s_var s0) 0 (V TF64 (rd_mem (g_mem g) (trunc 64 (a + imm)) 8)))) (r_rd i) (rd_mem (g_mem g) (trunc 64 (a + imm)) 8)));
      [unfold lift_mnem; rewrite M; reflexivity| | |reflexivity|reflexivity].
    + unfold LiftLoadFp. cbn [run run1]. fold s0. rewrite EA. cbn [bind load_rv].
      change (nbytes (facet_type F64)) with 8%nat. rewrite load_rd, (rd_mem_ext 8 (s_mem s0) (g_mem g)) by (intro; apply FR0).
      eapply run_StoreFp; [reflexivity|apply (rd_mem_inr (g_mem g) _ 8)].
    + apply rel_fp_written; [apply rel_with_var, FR0|apply (rd_mem_inr (g_mem g) _ 8)].
  - (* FSD *) eapply store_goal; [exact R|exact PC|unfold lift_mnem; rewrite M; reflexivity
      |apply (ev_LoadFp c s0 g (r_rs2 i) F64 FR0); tauto|exact EA|reflexivity|cbn; lia|].
    intros k K. apply byte_trunc; cbn [facet_size]; lia.
  - (* FMVXD *) eapply plain_gp64; [unfold lift_mnem; rewrite M; reflexivity|exact R|apply ev_bits; tauto|reflexivity|exact PC].
  - (* FMVDX *) eapply (fp_goal _ TF64 a); [unfold lift_mnem; rewrite M; reflexivity| |apply (rx_inr s); exact R|reflexivity].
    pose proof (val_LoadGp64 c s0 g (r_rs1 i) FR0) as Q. unfold val, ev, eBitCast in *. cbn [eval]. rewrite Q. reflexivity.
  - rewrite <- (trunc_small 64 f1 F1), <- (trunc_small 64 f2 F2).
    eapply (fsgn_goal F64 64 false true); [tauto|unfold lift_mnem; rewrite M; reflexivity|reflexivity].
  - rewrite <- (trunc_small 64 f1 F1), <- (trunc_small 64 f2 F2).
    eapply (fsgn_goal F64 64 false false); [tauto|unfold lift_mnem; rewrite M; reflexivity|reflexivity].
  - rewrite <- (trunc_small 64 f1 F1), <- (trunc_small 64 f2 F2).
    eapply (fsgn_goal F64 64 true false); [tauto|unfold lift_mnem; rewrite M; reflexivity|reflexivity].
Qed.
(** Single-precision moves: the low 32 bits are right; the upper half is zero
    where the ISA has ones, and operands are not checked for boxing. *)
Lemma fps_correct : forall z, isa_fps i g (U 32 f1) (U 32 f2) = Some z ->
  lifts_to c cfg kc i s (wpc (wf g (r_rd i) (U 32 z)) (g_pc g + r_len i)) (PcConst (r_end i)).
Proof.
  intros z E. pose proof (ev_Addr c kc s0 g i FR0 KC GB) as EA. fold a imm in EA.
  assert (SG : forall (keep zero : bool) mode, mode = (if keep then 2 else if zero then 0 else 1) ->
     U 32 (isa_fsgn 32 (trunc 32 f1) (trunc 32 f2) mode) = isa_fsgn 32 (trunc 32 f1) (trunc 32 f2) mode).
  { intros keep zero mode ->. apply trunc_small. rewrite <- fsgn_val by (lia || (apply trunc_range; lia)).
    assert (I1 : inr 32 (trunc 32 f1)) by (apply trunc_range; lia).
    apply lxor_inr; [lia| |apply land_inr_l; [lia|apply trunc_range; lia]].
    destruct keep; cbn [negb andb]; [assumption|]. destruct zero; cbn [negb]; [apply land_inr_l; [lia|assumption]|].
    apply lor_inr; [lia|assumption|apply pow2_inr; lia]. }
  unfold isa_fps in E. fold a imm in E.
  destruct (r_mn i) eqn:M; try discriminate E; injection E as <-.
  - (* FLW *) assert (I4 : inr 32 (rd_mem (g_mem g) (trunc 64 (a + imm)) 4)) by apply (rd_mem_inr (g_mem g) _ 4).
    assert (I6 : inr 64 (rd_mem (g_mem g) (trunc 64 (a + imm)) 4)) by (apply (inr_le 32); [lia|exact I4]).
    change U with trunc. rewrite (trunc_small 32) by exact I4.
    eapply (plain_gen c cfg kc i s g PC _ (fp_written (with_var s0 (upd_var (s_var s0) 0 (V TF32 (rd_mem (g_mem g) (trunc 64 (a + imm)) 4)))) (r_rd i) (rd_mem (g_mem g) (trunc 64 (a + imm)) 4)));
      [unfold lift_mnem; rewrite M; reflexivity| | |reflexivity|reflexivity].
    + unfold LiftLoadFp. cbn [run run1]. fold s0. rewrite EA. cbn [bind load_rv].
      change (nbytes (facet_type F32)) with 4%nat. rewrite load_rd, (rd_mem_ext 4 (s_mem s0) (g_mem g)) by (intro; apply FR0).
      eapply run_StoreFp; [reflexivity|exact I6].
    + apply rel_fp_written; [apply rel_with_var, FR0|exact I6].
  - (* FMVWX *) eapply (fp_goal _ TF32 (trunc 32 a)); [unfold lift_mnem; rewrite M; reflexivity| | |].
    + pose proof (val_LoadGp32 c s0 g (r_rs1 i) FR0) as Q. unfold val, ev, eBitCast in *. cbn [eval]. rewrite Q. reflexivity.
    + apply (inr_le 32); [lia|apply trunc_range; lia].
    + change U with trunc. rewrite trunc_trunc by lia. reflexivity.
  - change (U 32 f1) with (trunc 32 f1). change (U 32 f2) with (trunc 32 f2). rewrite (SG false true) by reflexivity.
    eapply (fsgn_goal F32 32 false true); [tauto|unfold lift_mnem; rewrite M; reflexivity|reflexivity].
  - change (U 32 f1) with (trunc 32 f1). change (U 32 f2) with (trunc 32 f2). rewrite (SG false false) by reflexivity.
    eapply (fsgn_goal F32 32 false false); [tauto|unfold lift_mnem; rewrite M; reflexivity|reflexivity].
  - change (U 32 f1) with (trunc 32 f1). change (U 32 f2) with (trunc 32 f2). rewrite (SG true false) by reflexivity.
    eapply (fsgn_goal F32 32 true false); [tauto|unfold lift_mnem; rewrite M; reflexivity|reflexivity].
Qed.

(** fclass writes the class index (not the one-hot mask the ISA asks for). *)
Lemma fclass_goal : forall f w mant, f = I32 /\ w = 32 /\ mant = 23 \/ f = I64 /\ w = 64 /\ mant = 52 ->
  lift_mnem c cfg kc i = plain (LiftFclass i f) i ->
  lifts_to c cfg kc i s (wpc (wx g (r_rd i) (fclass w mant (U w f1))) (g_pc g + r_len i)) (PcConst (r_end i)).
Proof.
  intros f w mant C L.
  assert (W : 0 < mant /\ mant < w - 1 /\ 4 < w <= 64) by (destruct C as [[_ [-> ->]]|[_ [-> ->]]]; lia).
  set (x := trunc w f1). assert (XI : inr w x) by (apply trunc_range; lia).
  change (U w f1) with x. rewrite <- fclass_ok by (lia || assumption).
  assert (LD : val c s0 (LoadFp (r_rs1 i) f) w x).
  { destruct C as [[-> [-> ->]]|[-> [-> ->]]].
    - apply (val_LoadFpI c s0 g (r_rs1 i) I32 FR0). tauto.
    - apply (val_LoadFpI c s0 g (r_rs1 i) I64 FR0). tauto. }
  assert (TK : forall z, 0 <= z < 16 -> trunc w z = z).
  { intros z Z. apply trunc_small. apply (inr_le 4); [lia|]. unfold inr. change (2^4) with 16. lia. }
  assert (EMR : inr w (fclass_emit w mant x)).
  { rewrite fclass_ok by (lia || assumption). apply (inr_le 4); [lia|]. unfold inr, fclass. change (2^4) with 16.
    repeat match goal with |- context [if ?b then _ else _] => destruct b end; lia. }
  assert (VE : val c s0 (let expmsk := if w =? 32 then 0x7f800000 else 0x7ff0000000000000 in
    let mantmsk := if w =? 32 then 0x007fffff else 0x000fffffffffffff in
    let nanidx := if w =? 32 then 22 else 51 in
    let v := LoadFp (r_rs1 i) f in
    let sign := eAnd v (cI w (2^(w-1))) in
    let exp := eAnd v (cI w expmsk) in
    let expzero := eCmp EQ exp (cI w 0) in
    let expmax := eCmp EQ exp (cI w expmsk) in
    let mant := eAnd v (cI w mantmsk) in
    let mantnotzero := eCmp NE mant (cI w 0) in
    let mze := eOr (eZExt w mantnotzero) (cI w 4) in
    let mme := eOr (eZExt w expmax) (cI w 6) in
    let res := eSel expzero mze mme in
    let resneg := eXor res (cI w 7) in
    let res2 := eSel (eCmp EQ sign (cI w 0)) res resneg in
    let signaling := eOr (eLShr mant (cI w nanidx)) (cI w 8) in
    let isnan := eAnd expmax mantnotzero in
    eSel isnan signaling res2) w (fclass_emit w mant x)).
  { set (em := if w =? 32 then 0x7f800000 else 0x7ff0000000000000).
    set (mm := if w =? 32 then 0x007fffff else 0x000fffffffffffff).
    set (ni := if w =? 32 then 22 else 51). cbv zeta.
    assert (EM : em = (2^(w-1-mant) - 1) * 2^mant /\ trunc w em = em) by (subst em; destruct C as [[_ [-> ->]]|[_ [-> ->]]]; split; reflexivity).
    assert (MM : mm = 2^mant - 1 /\ trunc w mm = mm) by (subst mm; destruct C as [[_ [-> ->]]|[_ [-> ->]]]; split; reflexivity).
    assert (NI : ni = mant - 1 /\ trunc w ni = ni) by (subst ni; destruct C as [[_ [-> ->]]|[_ [-> ->]]]; split; reflexivity).
    destruct EM as [EM1 EM2]. destruct MM as [MM1 MM2]. destruct NI as [NI1 NI2].
    assert (P2 : trunc w (2^(w-1)) = 2^(w-1)) by (apply trunc_small, pow2_inr; lia).
    pose proof (val_bin c s0 And _ _ w _ _ _ LD (val_cI c s0 w (2^(w-1))) eq_refl) as Vsign. rewrite P2 in Vsign.
    pose proof (val_bin c s0 And _ _ w _ _ _ LD (val_cI c s0 w em) eq_refl) as Vexp. rewrite EM2 in Vexp.
    pose proof (val_bin c s0 And _ _ w _ _ _ LD (val_cI c s0 w mm) eq_refl) as Vmant. rewrite MM2 in Vmant.
    cbn beta in Vsign, Vexp, Vmant. fold (eAnd (LoadFp (r_rs1 i) f) (cI w (2^(w-1)))) in Vsign.
    pose proof (val_cmp c s0 EQ _ _ w _ _ Vexp (val_cI c s0 w 0)) as Vez. rewrite TK in Vez by lia.
    pose proof (val_cmp c s0 EQ _ _ w _ _ Vexp (val_cI c s0 w em)) as Vem. rewrite EM2 in Vem.
    pose proof (val_cmp c s0 NE _ _ w _ _ Vmant (val_cI c s0 w 0)) as Vmz. rewrite TK in Vmz by lia.
    pose proof (val_bin c s0 Or _ _ w _ _ _ (val_zext c s0 _ 1 w _ Vmz ltac:(lia)) (val_cI c s0 w 4) eq_refl) as Vmze. rewrite TK in Vmze by lia.
    pose proof (val_bin c s0 Or _ _ w _ _ _ (val_zext c s0 _ 1 w _ Vem ltac:(lia)) (val_cI c s0 w 6) eq_refl) as Vmme. rewrite TK in Vmme by lia.
    pose proof (val_sel c s0 _ _ _ w _ _ _ Vez Vmze Vmme) as Vres.
    pose proof (val_bin c s0 Xor _ _ w _ _ _ Vres (val_cI c s0 w 7) eq_refl) as Vneg. rewrite TK in Vneg by lia.
    pose proof (val_cmp c s0 EQ _ _ w _ _ Vsign (val_cI c s0 w 0)) as Vsz. rewrite TK in Vsz by lia.
    pose proof (val_sel c s0 _ _ _ w _ _ _ Vsz Vres Vneg) as Vres2.
    assert (SH : ibin LShr w (Z.land x mm) ni = IV (Z.land x mm / 2^(mant-1))).
    { rewrite NI1. cbn [ibin]. destruct (mant - 1 <? w) eqn:Q; [|lia]. rewrite Z.shiftr_div_pow2 by lia. reflexivity. }
    assert (Vsh : val c s0 (eLShr (eAnd (LoadFp (r_rs1 i) f) (cI w mm)) (cI w ni)) w (Z.land x mm / 2^(mant-1))).
    { eapply val_bin; [exact Vmant|apply val_cI|rewrite NI2; exact SH]. }
    pose proof (val_bin c s0 Or _ _ w _ _ _ Vsh (val_cI c s0 w 8) eq_refl) as Vsg. rewrite TK in Vsg by lia.
    pose proof (val_bin c s0 And _ _ 1 _ _ _ Vem Vmz eq_refl) as Vnan.
    pose proof (val_sel c s0 _ _ _ w _ _ _ Vnan Vsg Vres2) as VV.
    cbn [icmp_sem] in VV. rewrite EM1, MM1 in VV. rewrite EM1, MM1.
    unfold fclass_emit. cbv zeta.
    match type of VV with val _ _ _ _ ?v1 => match goal with |- val _ _ _ _ ?v2 => replace v2 with v1; [exact VV|] end end.
    destruct (Z.land x ((2^(w-1-mant) - 1) * 2^mant) =? (2^(w-1-mant) - 1) * 2^mant),
             (Z.land x (2^mant - 1) =? 0), (Z.land x ((2^(w-1-mant) - 1) * 2^mant) =? 0), (Z.land x (2^(w-1)) =? 0); reflexivity. }
  assert (SM : sext w 64 (fclass_emit w mant x) = U 64 (fclass_emit w mant x)).
  { unfold sext. change U with trunc. f_equal. rewrite <- (S_small w _ EMR). apply S_id; [lia|].
    rewrite fclass_ok by (lia || assumption). pose proof (pow2_pos (w-1) ltac:(lia)).
    assert (2^4 <= 2^(w-1)) by (apply Z.pow_le_mono_r; lia). change (2^4) with 16 in *. unfold fclass.
    repeat match goal with |- context [if ?b then _ else _] => destruct b end; lia. }
  eapply (plain_gp c cfg kc i s g _ w (fclass_emit w mant x)); [rewrite L; unfold LiftFclass|exact R|exact VE|lia|exact EMR|exact SM|exact PC].
  destruct C as [[-> [-> ->]]|[-> [-> ->]]]; reflexivity.
Qed.
End Fp.
