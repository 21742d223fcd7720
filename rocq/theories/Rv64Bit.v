(** Correctness of the bit-manipulation instructions (Zba, Zbb, Zbc, Zbs) of the
    RV64 lifter. *)

From Coq Require Import ZArith Lia ZifyBool List Bool.
From Verif Require Import Bits IR Facet Dsl Rv64 Rv64Spec Rv64Sim Rv64Arith Rv64Int.
Import ListNotations.
Open Scope Z_scope.
Ltac Zify.zify_post_hook ::= Z.div_mod_to_equations.

Lemma lanes_unlanes : forall w l, 0 <= w -> Forall (inr w) l ->
  lanes (Z.of_nat (length l)) w (unlanes w l) = l.
Proof.
  intros w l W F. apply nth_ext with (d := 0) (d' := 0).
  - rewrite lanes_length, Nat2Z.id. reflexivity.
  - intros n Hn. rewrite lanes_length, Nat2Z.id in Hn.
    rewrite lanes_nth by (rewrite Nat2Z.id; assumption).
    rewrite lane_unlanes; try assumption. reflexivity.
Qed.

(** A byte is 0 or 255 after comparing with zero and sign-extending. *)
Definition orb1 (x : Z) : Z := if x =? 0 then 0 else 255.

Lemma sext1_8 : forall p, sext 1 8 (b2z p) = if p then 255 else 0.
Proof. destruct p; reflexivity. Qed.

Lemma Some_inj : forall (x y : Z), Some x = Some y -> x = y.
Proof. intros x y E. injection E. trivial. Qed.

Section Bit.
Context `{FpuOps}.
Variable c : cenv.
Hypothesis HA : c_arch c = RV64.
Variable cfg : lcfg.
Variable kc : areg -> konst.
Variable i : rvinst.
Variable s : st.
Variable g : gst.
Hypothesis R : rel s g.
Hypothesis PC : g_pc g = addr_pc_base c (r_start i).
Let a := rx g (r_rs1 i).
Let b := rx g (r_rs2 i).
Let imm := r_imm i.
Let s0 := at_start i s.

Lemma Ba : inr 64 a. Proof. apply (rx_inr s). assumption. Qed.
Lemma Bb : inr 64 b. Proof. apply (rx_inr s). assumption. Qed.
Lemma Ta : trunc 64 a = a. Proof. apply trunc_small, Ba. Qed.
Lemma Tb : trunc 64 b = b. Proof. apply trunc_small, Bb. Qed.
Lemma BR0 : rel s0 g. Proof. apply rel_at_start. assumption. Qed.
Lemma b64 : forall n, val c s0 (LoadGp n I64) 64 (rx g n).
Proof. intros. apply val_LoadGp64. apply BR0. Qed.
Lemma b32 : forall n, val c s0 (LoadGp n I32) 32 (trunc 32 (rx g n)).
Proof. intros. apply val_LoadGp32. apply BR0. Qed.
Lemma bUw : forall n, val c s0 (LoadUw n) 64 (trunc 32 (rx g n)).
Proof. intros. unfold LoadUw. apply val_zext with (w := 32); [apply b32|lia]. Qed.

Ltac go64 H := eapply plain_gp64; [unfold lift_mnem; rewrite H; reflexivity|exact R| | |exact PC].
Ltac go32 H := eapply plain_gp32; [unfold lift_mnem; rewrite H; reflexivity|exact R| | |exact PC].
Notation Goal_ v := (lifts_to c cfg kc i s (wpc (wx g (r_rd i) v) (g_pc g + r_len i)) (PcConst (r_end i))).

(** Zba. *)
Lemma shnadd_val : forall e x n, val c s0 e 64 x -> 0 <= n < 64 ->
  val c s0 (eAdd (LoadGp (r_rs2 i) I64) (eShl e (cI 64 n))) 64 (U 64 (b + 2^n * x)).
Proof.
  intros e x n E N. eapply val_bin; [apply b64| |].
  - eapply val_bin; [exact E|apply val_cI|].
    rewrite trunc_small by (unfold inr; change (2^64) with 18446744073709551616; lia).
    cbn [ibin]. destruct (n <? 64) eqn:L; [reflexivity|lia].
  - cbn [ibin]. rewrite Z.shiftl_mul_pow2, trunc_add_r by lia. change U with trunc. do 2 f_equal. subst b. ring.
Qed.
Lemma bit_ADDUW : r_mn i = R_ADDUW -> Goal_ (b + U 32 a).
Proof. intro E. go64 E; [eapply val_bin; [apply b64|apply bUw|reflexivity]|reflexivity]. Qed.
Lemma bit_SH1ADD : r_mn i = R_SH1ADD -> Goal_ (b + 2 * a).
Proof. intro E. go64 E; [apply shnadd_val; [apply b64|lia]|reflexivity]. Qed.
Lemma bit_SH2ADD : r_mn i = R_SH2ADD -> Goal_ (b + 4 * a).
Proof. intro E. go64 E; [apply shnadd_val; [apply b64|lia]|reflexivity]. Qed.
Lemma bit_SH3ADD : r_mn i = R_SH3ADD -> Goal_ (b + 8 * a).
Proof. intro E. go64 E; [apply shnadd_val; [apply b64|lia]|reflexivity]. Qed.
Lemma bit_SH1ADDUW : r_mn i = R_SH1ADDUW -> Goal_ (b + 2 * U 32 a).
Proof. intro E. go64 E; [apply shnadd_val; [apply bUw|lia]|reflexivity]. Qed.
Lemma bit_SH2ADDUW : r_mn i = R_SH2ADDUW -> Goal_ (b + 4 * U 32 a).
Proof. intro E. go64 E; [apply shnadd_val; [apply bUw|lia]|reflexivity]. Qed.
Lemma bit_SH3ADDUW : r_mn i = R_SH3ADDUW -> Goal_ (b + 8 * U 32 a).
Proof. intro E. go64 E; [apply shnadd_val; [apply bUw|lia]|reflexivity]. Qed.
(** slli.uw has a 6-bit shift amount; the decoder guarantees the range. *)
Lemma bit_SLLIUW : r_mn i = R_SLLIUW -> 0 <= imm < 64 -> Goal_ (U 32 a * 2^(imm mod 64)).
Proof.
  intros E I. go64 E.
  - eapply val_bin; [apply bUw|apply val_cI|]. fold imm.
    rewrite (trunc_small 64 imm) by (unfold inr; change (2^64) with 18446744073709551616; lia).
    rewrite <- (Z.mod_small imm 64) by lia. apply ibin_shl. lia.
  - reflexivity.
Qed.

(** Logic with complement. *)
Lemma bnot_v : forall e x, val c s0 e 64 x -> inr 64 x -> val c s0 (eNot 64 e) 64 (trunc 64 (Z.lnot x)).
Proof.
  intros e x E X. eapply val_bin; [exact E|apply val_cI|]. cbn [ibin]. rewrite lxor_m1 by (lia || assumption). reflexivity.
Qed.
Lemma bit_ANDN : r_mn i = R_ANDN -> Goal_ (Z.land a (Z.lnot b)).
Proof.
  intro E. go64 E; [eapply val_bin; [apply b64|apply bnot_v; [apply b64|apply Bb]|reflexivity]|].
  change U with trunc. rewrite trunc_land, Ta by lia. reflexivity.
Qed.
Lemma bit_ORN : r_mn i = R_ORN -> Goal_ (Z.lor a (Z.lnot b)).
Proof.
  intro E. go64 E; [eapply val_bin; [apply b64|apply bnot_v; [apply b64|apply Bb]|reflexivity]|].
  change U with trunc. rewrite trunc_lor, Ta by lia. reflexivity.
Qed.
Lemma bit_XNOR : r_mn i = R_XNOR -> Goal_ (Z.lnot (Z.lxor a b)).
Proof.
  intro E. go64 E; [apply bnot_v; [eapply val_bin; [apply b64|apply b64|reflexivity]|]|reflexivity].
  apply lxor_inr; [lia|apply Ba|apply Bb].
Qed.

(** Counting. *)
Lemma small_U : forall w x, 0 <= x <= 64 -> 7 <= w -> x = U w x.
Proof.
  intros w x X W. symmetry. apply trunc_small. split; [lia|].
  apply Z.lt_le_trans with (2^7); [change (2^7) with 128; lia|apply Z.pow_le_mono_r; lia].
Qed.
Lemma S_count : forall x, 0 <= x <= 64 -> S_ 32 x = x.
Proof. intros. apply S_id; [lia|]. change (2^(32-1)) with 2147483648. lia. Qed.
Lemma bit_CLZ : r_mn i = R_CLZ -> Goal_ (clz 64 a).
Proof.
  intro E. go64 E; [eapply val_intr1; [apply b64|apply (ctlz_ok 64), Ba]|].
  apply small_U; [|lia]. pose proof (clz_range 64 a). lia.
Qed.
Lemma bit_CLZW : r_mn i = R_CLZW -> Goal_ (clz 32 a).
Proof.
  intro E. rewrite <- (S_count (clz 32 a)) by (pose proof (clz_range 32 a); lia).
  go32 E; [eapply val_intr1; [apply b32|apply (ctlz_ok 32), trunc_range; lia]|].
  rewrite (clz_congr 32 (trunc 32 (rx g (r_rs1 i))) a) by (intros; apply trunc_low_bits; lia).
  apply small_U; [|lia]. pose proof (clz_range 32 a). lia.
Qed.
Lemma bit_CTZ : r_mn i = R_CTZ -> Goal_ (ctz 64 a).
Proof.
  intro E. go64 E; [eapply val_intr1; [apply b64|apply (cttz_ok 64)]|].
  apply small_U; [|lia]. pose proof (ctz_range 64 a). lia.
Qed.
Lemma bit_CTZW : r_mn i = R_CTZW -> Goal_ (ctz 32 a).
Proof.
  intro E. rewrite <- (S_count (ctz 32 a)) by (pose proof (ctz_range 32 a); lia).
  go32 E; [eapply val_intr1; [apply b32|apply (cttz_ok 32)]|].
  rewrite (ctz_congr 32 (trunc 32 (rx g (r_rs1 i))) a) by (apply trunc_trunc; lia).
  apply small_U; [|lia]. pose proof (ctz_range 32 a). lia.
Qed.
Lemma cpop_rng : forall n x, 0 <= cpop n x <= Z.of_nat n.
Proof. intros. rewrite <- popcount_cpop. apply popcount_nat_range. Qed.
Lemma bit_CPOP : r_mn i = R_CPOP -> Goal_ (cpop 64 a).
Proof.
  intro E. go64 E; [eapply val_intr1; [apply b64|reflexivity]|].
  unfold popcount. change (Z.to_nat 64) with 64%nat. rewrite popcount_cpop.
  apply small_U; [|lia]. pose proof (cpop_rng 64 a). lia.
Qed.
Lemma bit_CPOPW : r_mn i = R_CPOPW -> Goal_ (cpop 32 a).
Proof.
  intro E. rewrite <- (S_count (cpop 32 a)) by (pose proof (cpop_rng 32 a); lia).
  go32 E; [eapply val_intr1; [apply b32|reflexivity]|].
  unfold popcount. change (Z.to_nat 32) with 32%nat.
  rewrite (popcount_congr 32 (trunc 32 (rx g (r_rs1 i))) a) by (intros; apply trunc_low_bits; lia).
  rewrite popcount_cpop. apply small_U; [|lia]. pose proof (cpop_rng 32 a). lia.
Qed.

(** Min/max. *)
Lemma bS_a : trunc 64 (S_ 64 a) = a. Proof. rewrite trunc_S by lia. apply Ta. Qed.
Lemma bS_b : trunc 64 (S_ 64 b) = b. Proof. rewrite trunc_S by lia. apply Tb. Qed.
Lemma bit_MAX : r_mn i = R_MAX -> Goal_ (Z.max (S_ 64 a) (S_ 64 b)).
Proof.
  intro E. go64 E; [eapply val_intr2; apply b64|]. cbn [intr2_sem]. fold a b.
  rewrite <- (S_small 64 a), <- (S_small 64 b) by (apply Ba || apply Bb). change U with trunc.
  destruct (S_ 64 a <? S_ 64 b) eqn:L.
  - rewrite Z.max_r, bS_b by lia. reflexivity.
  - rewrite Z.max_l, bS_a by lia. reflexivity.
Qed.
Lemma bit_MIN : r_mn i = R_MIN -> Goal_ (Z.min (S_ 64 a) (S_ 64 b)).
Proof.
  intro E. go64 E; [eapply val_intr2; apply b64|]. cbn [intr2_sem]. fold a b.
  rewrite <- (S_small 64 a), <- (S_small 64 b) by (apply Ba || apply Bb). change U with trunc.
  destruct (S_ 64 b <? S_ 64 a) eqn:L.
  - rewrite Z.min_r, bS_b by lia. reflexivity.
  - rewrite Z.min_l, bS_a by lia. reflexivity.
Qed.
Lemma bit_MAXU : r_mn i = R_MAXU -> Goal_ (Z.max a b).
Proof.
  intro E. go64 E; [eapply val_intr2; apply b64|]. cbn [intr2_sem]. fold a b. change U with trunc.
  destruct (a <? b) eqn:L; [rewrite Z.max_r, Tb by lia|rewrite Z.max_l, Ta by lia]; reflexivity.
Qed.
Lemma bit_MINU : r_mn i = R_MINU -> Goal_ (Z.min a b).
Proof.
  intro E. go64 E; [eapply val_intr2; apply b64|]. cbn [intr2_sem]. fold a b. change U with trunc.
  destruct (b <? a) eqn:L; [rewrite Z.min_r, Tb by lia|rewrite Z.min_l, Ta by lia]; reflexivity.
Qed.

(** Byte operations. *)
Lemma byte_rng : forall x k, 0 <= byte x k < 256.
Proof. intros. apply Z.mod_pos_bound. lia. Qed.
Lemma rev8_inr : forall x, inr 64 (rev8 x).
Proof.
  intros x. rewrite <- bswap_rev8. unfold bswap_sem. 
  assert (F : Forall (inr 8) (rev (lanes (64 / 8) 8 x))) by (apply Forall_rev, lanes_Forall; lia).
  pose proof (unlanes_inr 8 _ ltac:(lia) F) as I. rewrite rev_length, lanes_length in I. exact I.
Qed.
Lemma bit_REV8 : r_mn i = R_REV8 -> Goal_ (rev8 a).
Proof.
  intro E. go64 E; [eapply val_intr1; [apply b64|reflexivity]|]. fold a. rewrite bswap_rev8.
  symmetry. apply trunc_small, rev8_inr.
Qed.
Definition orc_list : list Z :=
  [orb1 (byte a 0); orb1 (byte a 1); orb1 (byte a 2); orb1 (byte a 3);
   orb1 (byte a 4); orb1 (byte a 5); orb1 (byte a 6); orb1 (byte a 7)].
Lemma orc_val : val c s0 (eBitCast (TInt 64) (E1 (OCast CSExt (TVec 8 (TInt 8)))
    (eCmp NE (eBitCast (TVec 8 (TInt 8)) (LoadGp (r_rs1 i) I64)) (EConst (TVec 8 (TInt 8)) 0)))) 64
  (unlanes 8 orc_list).
Proof.
  pose proof (b64 (r_rs1 i)) as L. fold a in L. unfold val, ev in *. unfold eBitCast, eCmp.
  cbn [eval]. rewrite L. cbn [bind sem1]. unfold cast_sem at 1. cbn [ty_of].
  change (cast_fun CBitCast (TInt 64) (TVec 8 (TInt 8))) with (Some (fun z : Z => z)).
  cbn [bind sem2]. unfold cmp_sem, same2. cbn [ty_of]. rewrite ty_eqb_refl.
  unfold vec2. rewrite lanes8_bytes.
  replace (trunc (tsize (TVec 8 (TInt 8))) 0) with 0 by reflexivity. rewrite lanes8_bytes.
  replace (byte 0 0) with 0 by reflexivity. replace (byte 0 1) with 0 by reflexivity.
  replace (byte 0 2) with 0 by reflexivity. replace (byte 0 3) with 0 by reflexivity.
  replace (byte 0 4) with 0 by reflexivity. replace (byte 0 5) with 0 by reflexivity.
  replace (byte 0 6) with 0 by reflexivity. replace (byte 0 7) with 0 by reflexivity.
  cbn [map2 combine map fst snd seq_ires of_lanes bind sem1 icmp_sem].
  unfold map2. cbn [combine map fst snd seq_ires of_lanes bind sem1 icmp_sem].
  unfold cast_sem at 2. cbn [ty_of].
  set (l := [b2z _; b2z _; b2z _; b2z _; b2z _; b2z _; b2z _; b2z _]).
  assert (LL : lanes 8 1 (unlanes 1 l) = l).
  { apply (lanes_unlanes 1 l); [lia|]. subst l. repeat (constructor; [apply inr_b2z; lia|]). constructor. }
  unfold cast_sem. cbn [ty_of].
  change (cast_fun CSExt (TVec 8 (TInt 1)) (TVec 8 (TInt 8)))
    with (Some (fun z : Z => unlanes 8 (map (sext 1 8) (lanes 8 1 z)))).
  cbn [bind ty_of].
  change (cast_fun CBitCast (TVec 8 (TInt 8)) (TInt 64)) with (Some (fun z : Z => z)). cbn beta iota.
  rewrite LL. subst l. cbn [map]. rewrite !sext1_8. unfold orc_list, orb1.
  destruct (byte a 0 =? 0), (byte a 1 =? 0), (byte a 2 =? 0), (byte a 3 =? 0); cbn [negb];
  destruct (byte a 4 =? 0), (byte a 5 =? 0), (byte a 6 =? 0), (byte a 7 =? 0); reflexivity.
Qed.
Lemma orc_eq : unlanes 8 orc_list = orcb a.
Proof.
  unfold orcb. rewrite bytes8_unfold. unfold orc_list, orb1.
  destruct (byte a 0 =? 0), (byte a 1 =? 0), (byte a 2 =? 0), (byte a 3 =? 0);
  destruct (byte a 4 =? 0), (byte a 5 =? 0), (byte a 6 =? 0), (byte a 7 =? 0); reflexivity.
Qed.
Lemma bit_ORCB : r_mn i = R_ORCB -> Goal_ (orcb a).
Proof.
  intro E. go64 E; [apply orc_val|]. rewrite <- orc_eq. symmetry. apply trunc_small.
  apply (unlanes_inr 8 orc_list); [lia|]. unfold orc_list.
  assert (O : forall x, inr 8 (orb1 x)) by (intro x; unfold orb1, inr; destruct (x =? 0); change (2^8) with 256; lia).
  repeat (constructor; [apply O|]). constructor.
Qed.

(** Rotations. *)
Lemma rot_goal : forall l e w x v, r_mn i = r_mn i ->
  lift_mnem c cfg kc i = plain (StoreGp (r_rd i) (eSExt 64 e)) i ->
  0 < w <= 64 -> val c s0 e w (trunc w x) -> U 64 (S_ w x) = U 64 v -> l = l :> bool -> Goal_ v.
Proof.
  intros l e w x v _ L W E V _.
  assert (T : inr w (trunc w x)) by (apply trunc_range; lia).
  eapply plain_gp64; [exact L|exact R|apply val_sext; [exact E|lia|exact T]| |exact PC].
  rewrite <- V. reflexivity.
Qed.
Lemma mod32_trunc : forall x, trunc 32 x mod 32 = x mod 32.
Proof. intros. unfold trunc. change (2^32) with (32 * 134217728). rewrite Z.rem_mul_r by lia.
  rewrite Z.mul_comm, Z_mod_plus_full. apply Z.mod_mod. lia. Qed.
Lemma mod64_trunc : forall x, trunc 64 x mod 64 = x mod 64.
Proof. intros. unfold trunc. change (2^64) with (64 * 288230376151711744). rewrite Z.rem_mul_r by lia.
  rewrite Z.mul_comm, Z_mod_plus_full. apply Z.mod_mod. lia. Qed.
Lemma U_S64 : forall x, U 64 (S_ 64 x) = U 64 x.
Proof. intros. change U with trunc. rewrite trunc_S by lia. reflexivity. Qed.
Lemma bit_ROL : r_mn i = R_ROL -> Goal_ (rotl 64 a b).
Proof.
  intro E. eapply (rot_goal true _ 64 (rotl 64 a b)); try reflexivity; try lia.
  - unfold lift_mnem; rewrite E; reflexivity.
  - rewrite <- fshl_rot by (lia || apply Ba). apply val_fsh; apply b64.
  - apply U_S64.
Qed.
Lemma bit_ROR : r_mn i = R_ROR -> Goal_ (rotr 64 a b).
Proof.
  intro E. eapply (rot_goal true _ 64 (rotr 64 a b)); try reflexivity; try lia.
  - unfold lift_mnem; rewrite E; reflexivity.
  - rewrite <- fshr_rot by (lia || apply Ba). apply val_fsh; apply b64.
  - apply U_S64.
Qed.
Lemma rotr_congr : forall w x k k', w <> 0 -> k mod w = k' mod w -> rotr w x k = rotr w x k'.
Proof. intros. unfold rotr. apply rotl_congr. apply mod_opp_congr; assumption. Qed.
Lemma bit_RORI : r_mn i = R_RORI -> Goal_ (rotr 64 a imm).
Proof.
  intro E. eapply (rot_goal true _ 64 (rotr 64 a imm)); try reflexivity; try lia.
  - unfold lift_mnem; rewrite E; reflexivity.
  - rewrite (rotr_congr 64 a imm (trunc 64 imm)) by (try rewrite mod64_trunc; lia).
    rewrite <- fshr_rot by (lia || apply Ba). apply val_fsh; try apply b64. apply val_cI.
  - apply U_S64.
Qed.
Lemma bit_ROLW : r_mn i = R_ROLW -> Goal_ (S_ 32 (rotl 32 a b)).
Proof.
  intro E. eapply (rot_goal true _ 32 (rotl 32 a b)); try reflexivity; try lia.
  - unfold lift_mnem; rewrite E; reflexivity.
  - rewrite <- rotl_trunc by lia. rewrite (rotl_congr 32 _ b (trunc 32 b)) by (rewrite mod32_trunc; reflexivity).
    rewrite <- fshl_rot by (lia || (apply trunc_range; lia)). apply val_fsh; apply b32.
Qed.
Lemma rotr_trunc : forall w x k, 0 <= w -> rotr w (trunc w x) k = rotr w x k.
Proof. intros. apply rotl_trunc. assumption. Qed.
Lemma bit_RORW : r_mn i = R_RORW -> Goal_ (S_ 32 (rotr 32 a b)).
Proof.
  intro E. eapply (rot_goal true _ 32 (rotr 32 a b)); try reflexivity; try lia.
  - unfold lift_mnem; rewrite E; reflexivity.
  - rewrite <- rotr_trunc by lia. rewrite (rotr_congr 32 _ b (trunc 32 b)) by (try rewrite mod32_trunc; lia).
    rewrite <- fshr_rot by (lia || (apply trunc_range; lia)). apply val_fsh; apply b32.
Qed.
Lemma bit_RORIW : r_mn i = R_RORIW -> Goal_ (S_ 32 (rotr 32 a imm)).
Proof.
  intro E. eapply (rot_goal true _ 32 (rotr 32 a imm)); try reflexivity; try lia.
  - unfold lift_mnem; rewrite E; reflexivity.
  - rewrite <- rotr_trunc by lia. rewrite (rotr_congr 32 _ imm (trunc 32 imm)) by (try rewrite mod32_trunc; lia).
    rewrite <- fshr_rot by (lia || (apply trunc_range; lia)). apply val_fsh; try apply b32. apply val_cI.
Qed.

(** Extensions. *)
Lemma bit_SEXTB : r_mn i = R_SEXTB -> Goal_ (S_ 8 a).
Proof.
  intro E. eapply (plain_gp c cfg kc i s g _ 8 (trunc 8 a)); [unfold lift_mnem; rewrite E; reflexivity|exact R| |lia|apply trunc_range; lia|reflexivity|exact PC].
  apply (val_LoadGp c s0 g (r_rs1 i) I8 BR0). cbn; tauto.
Qed.
Lemma bit_SEXTH : r_mn i = R_SEXTH -> Goal_ (S_ 16 a).
Proof.
  intro E. eapply (plain_gp c cfg kc i s g _ 16 (trunc 16 a)); [unfold lift_mnem; rewrite E; reflexivity|exact R| |lia|apply trunc_range; lia|reflexivity|exact PC].
  apply (val_LoadGp c s0 g (r_rs1 i) I16 BR0). cbn; tauto.
Qed.
Lemma bit_ZEXTH : r_mn i = R_ZEXTH -> Goal_ (U 16 a).
Proof.
  intro E. go64 E; [eapply val_zext with (w := 16); [|lia]|].
  - apply (val_LoadGp c s0 g (r_rs1 i) I16 BR0). cbn; tauto.
  - symmetry. apply trunc_small, (inr_le 16); [lia|]. apply trunc_range. cbn; lia.
Qed.

(** Single-bit instructions. *)
Lemma bit1 : forall e y, val c s0 e 64 (trunc 64 y) ->
  val c s0 (eShl (cI 64 1) (eAnd e (cI 64 63))) 64 (2 ^ (y mod 64)).
Proof.
  intros e y E. pose proof (Z.mod_pos_bound y 64 ltac:(lia)) as B.
  eapply val_bin; [apply val_cI|eapply val_bin; [exact E|apply val_cI|]|].
  - cbn [ibin]. change (trunc 64 63) with 63. rewrite mask64. reflexivity.
  - rewrite ibin_shl by lia. change (trunc 64 1) with 1. rewrite Z.mul_1_l. rewrite trunc_small; [reflexivity|].
    apply pow2_inr. lia.
Qed.
Lemma bTb64 : val c s0 (LoadGp (r_rs2 i) I64) 64 (trunc 64 b).
Proof. rewrite Tb. apply b64. Qed.
Lemma bm : forall y, 0 <= y mod 64 < 64. Proof. intro. apply Z.mod_pos_bound. lia. Qed.
Lemma bset_g : forall e y, val c s0 e 64 (trunc 64 y) -> 
  lift_mnem c cfg kc i = plain (LiftBitInstruction i Or e false) i ->
  Goal_ (if Z.testbit a (y mod 64) then a else a + 2^(y mod 64)).
Proof.
  intros e y E L. eapply plain_gp64; [exact L|exact R|eapply val_bin; [apply b64|apply bit1; exact E|reflexivity]| |exact PC].
  fold a. rewrite <- bset_val by apply bm. symmetry. apply trunc_small.
  apply lor_inr; [lia|apply Ba|apply pow2_inr, bm].
Qed.
Lemma binv_g : forall e y, val c s0 e 64 (trunc 64 y) -> 
  lift_mnem c cfg kc i = plain (LiftBitInstruction i Xor e false) i ->
  Goal_ (if Z.testbit a (y mod 64) then a - 2^(y mod 64) else a + 2^(y mod 64)).
Proof.
  intros e y E L. eapply plain_gp64; [exact L|exact R|eapply val_bin; [apply b64|apply bit1; exact E|reflexivity]| |exact PC].
  fold a. rewrite <- binv_val by apply bm. symmetry. apply trunc_small.
  apply lxor_inr; [lia|apply Ba|apply pow2_inr, bm].
Qed.
Lemma bclr_g : forall e y, val c s0 e 64 (trunc 64 y) -> 
  lift_mnem c cfg kc i = plain (LiftBitInstruction i And e true) i ->
  Goal_ (if Z.testbit a (y mod 64) then a - 2^(y mod 64) else a).
Proof.
  intros e y E L. eapply plain_gp64; [exact L|exact R|eapply val_bin; [apply b64| |reflexivity]| |exact PC].
  { eapply val_bin; [apply bit1; exact E|apply val_cI|reflexivity]. }
  fold a. rewrite <- (bclr_val 64) by (apply bm || apply Ba). symmetry. apply trunc_small.
  apply land_inr_l; [lia|apply Ba].
Qed.
Lemma bext_g : forall e y, val c s0 e 64 (trunc 64 y) -> 
  lift_mnem c cfg kc i = plain (LiftBitExtract i e) i ->
  Goal_ (bool_z (Z.testbit a (y mod 64))).
Proof.
  intros e y E L. eapply plain_gp64; [exact L|exact R| | |exact PC].
  { eapply val_bin; [eapply val_bin; [apply b64|eapply val_bin; [exact E|apply val_cI|]|]|apply val_cI|reflexivity].
    - cbn [ibin]. change (trunc 64 63) with 63. rewrite mask64. reflexivity.
    - apply ibin_lshr. lia. }
  fold a. change (trunc 64 1) with 1. rewrite <- Z.shiftr_div_pow2, bext_val by apply bm.
  destruct (Z.testbit a (y mod 64)); reflexivity.
Qed.
Ltac by_ E := unfold lift_mnem; rewrite E; reflexivity.
Lemma bit_BSET : r_mn i = R_BSET -> Goal_ (if Z.testbit a (b mod 64) then a else a + 2^(b mod 64)).
Proof. intro E. eapply bset_g; [apply bTb64|by_ E]. Qed.
Lemma bit_BSETI : r_mn i = R_BSETI -> Goal_ (if Z.testbit a (imm mod 64) then a else a + 2^(imm mod 64)).
Proof. intro E. eapply bset_g; [apply val_cI|by_ E]. Qed.
Lemma bit_BINV : r_mn i = R_BINV -> Goal_ (if Z.testbit a (b mod 64) then a - 2^(b mod 64) else a + 2^(b mod 64)).
Proof. intro E. eapply binv_g; [apply bTb64|by_ E]. Qed.
Lemma bit_BINVI : r_mn i = R_BINVI -> Goal_ (if Z.testbit a (imm mod 64) then a - 2^(imm mod 64) else a + 2^(imm mod 64)).
Proof. intro E. eapply binv_g; [apply val_cI|by_ E]. Qed.
Lemma bit_BCLR : r_mn i = R_BCLR -> Goal_ (if Z.testbit a (b mod 64) then a - 2^(b mod 64) else a).
Proof. intro E. eapply bclr_g; [apply bTb64|by_ E]. Qed.
Lemma bit_BCLRI : r_mn i = R_BCLRI -> Goal_ (if Z.testbit a (imm mod 64) then a - 2^(imm mod 64) else a).
Proof. intro E. eapply bclr_g; [apply val_cI|by_ E]. Qed.
Lemma bit_BEXT : r_mn i = R_BEXT -> Goal_ (bool_z (Z.testbit a (b mod 64))).
Proof. intro E. eapply bext_g; [apply bTb64|by_ E]. Qed.
Lemma bit_BEXTI : r_mn i = R_BEXTI -> Goal_ (bool_z (Z.testbit a (imm mod 64))).
Proof. intro E. eapply bext_g; [apply val_cI|by_ E]. Qed.

(** Carry-less products. *)
Definition cl_term (k : clmul) (x j : Z) : Z :=
  match k with CLMUL => trunc 64 (x * 2^j) | CLMULH => x / 2^(64 - j) | CLMULR => x / 2^(63 - j) end.
Lemma cl_step : forall k t x y j e r, inr 64 x -> 
  s_var t 0 = Some (V (TInt 64) x) -> s_var t 1 = Some (V (TInt 64) y) ->
  0 <= j < 64 -> (k = CLMULH -> 1 <= j) -> val c t e 64 r ->
  val c t (clmul_step k j e) 64 (Z.lxor r (if Z.testbit y j then cl_term k x j else 0)).
Proof.
  intros k t x y j e r X V0 V1 J K E. unfold clmul_step.
  pose proof (val_var c t 0 64 x V0) as E0. pose proof (val_var c t 1 64 y V1) as E1.
  eapply val_bin; [exact E| |reflexivity].
  replace (if Z.testbit y j then cl_term k x j else 0)
    with (if b2z (Z.land (trunc 64 (2^j)) y =? trunc 64 0) =? 0 then cl_term k x j else trunc 64 0).
  2:{ replace (if b2z (Z.land (trunc 64 (2^j)) y =? trunc 64 0) =? 0 then cl_term k x j else trunc 64 0)
        with (if (Z.land (trunc 64 (2^j)) y =? trunc 64 0) then trunc 64 0 else cl_term k x j)
        by (destruct (Z.land (trunc 64 (2^j)) y =? trunc 64 0); reflexivity).
      change (trunc 64 0) with 0. rewrite (trunc_small 64 (2^j)) by (apply pow2_inr; lia).
      destruct (Z.testbit y j) eqn:T.
      - destruct (Z.land (2^j) y =? 0) eqn:Q; [|reflexivity]. apply Z.eqb_eq in Q.
        assert (B : Z.testbit (Z.land (2^j) y) j = true) by (rewrite Z.land_spec, Z.pow2_bits_true, T by lia; reflexivity).
        rewrite Q, Z.bits_0 in B. discriminate.
      - destruct (Z.land (2^j) y =? 0) eqn:Q; [reflexivity|]. exfalso. apply Z.eqb_neq in Q. apply Q.
        apply Z.bits_inj'. intros n N. rewrite Z.land_spec, Z.bits_0, testbit_pow2 by lia.
        destruct (j =? n) eqn:G; [apply Z.eqb_eq in G; subst n; rewrite T; reflexivity|reflexivity]. }
  assert (TJ : forall n, 0 <= n < 64 -> trunc 64 n = n)
    by (intros; apply trunc_small; unfold inr; change (2^64) with 18446744073709551616; lia).
  eapply val_sel; [apply (val_cmp c t EQ _ _ 64 (Z.land (trunc 64 (2^j)) y) (trunc 64 0)); [eapply val_bin; [apply val_cI|exact E1|reflexivity]|apply val_cI]|apply val_cI|].
  destruct k; cbn [cl_term].
  - eapply val_bin; [exact E0|apply val_cI|]. rewrite TJ by lia. rewrite <- (Z.mod_small j 64) by lia. apply ibin_shl. lia.
  - eapply val_bin; [exact E0|apply val_cI|]. rewrite TJ by (specialize (K eq_refl); lia).
    rewrite <- (Z.mod_small (64 - j) 64) by (specialize (K eq_refl); lia). apply ibin_lshr. lia.
  - eapply val_bin; [exact E0|apply val_cI|]. rewrite TJ by lia.
    rewrite <- (Z.mod_small (63 - j) 64) by lia. apply ibin_lshr. lia.
Qed.
Fixpoint cl_acc (k : clmul) (x y j : Z) (n : nat) (r : Z) : Z :=
  match n with O => r | S n' => cl_acc k x y (j + 1) n' (Z.lxor r (if Z.testbit y j then cl_term k x j else 0)) end.
Lemma cl_loop : forall k t x y n j e r, inr 64 x -> 
  s_var t 0 = Some (V (TInt 64) x) -> s_var t 1 = Some (V (TInt 64) y) ->
  0 <= j -> j + Z.of_nat n <= 64 -> (k = CLMULH -> 1 <= j) -> val c t e 64 r ->
  val c t (clmul_loop k j n e) 64 (cl_acc k x y j n r).
Proof.
  induction n; intros j e r X V0 V1 J1 J2 K E; cbn [clmul_loop cl_acc]; [exact E|].
  apply IHn; try assumption; try lia. apply cl_step; try assumption; lia.
Qed.
(** The accumulated value is a view of the carry-less product. *)
Definition view (k : clmul) (z : Z) : Z :=
  match k with CLMUL => trunc 64 z | CLMULH => Z.shiftr z 64 | CLMULR => Z.shiftr z 63 end.
Lemma view_lxor : forall k x y, view k (Z.lxor x y) = Z.lxor (view k x) (view k y).
Proof. destruct k; intros; cbn [view]; [apply trunc_lxor; lia|apply Z.shiftr_lxor|apply Z.shiftr_lxor]. Qed.
Lemma view_term : forall k x j, 0 <= x -> 0 <= j -> (k = CLMULH -> j <= 64) -> (k = CLMULR -> j <= 63) ->
  view k (x * 2^j) = cl_term k x j.
Proof.
  intros k x j X J H1 H2. destruct k; cbn [view cl_term]; [reflexivity| |].
  - rewrite Z.shiftr_div_pow2 by lia. specialize (H1 eq_refl).
    replace (2^64) with (2^(64-j) * 2^j) by (rewrite <- Z.pow_add_r by lia; f_equal; lia).
    pose proof (pow2_pos j J). rewrite Z.div_mul_cancel_r; [reflexivity|pose proof (pow2_pos (64-j)); lia|lia].
  - rewrite Z.shiftr_div_pow2 by lia. specialize (H2 eq_refl).
    replace (2^63) with (2^(63-j) * 2^j) by (rewrite <- Z.pow_add_r by lia; f_equal; lia).
    pose proof (pow2_pos j J). rewrite Z.div_mul_cancel_r; [reflexivity|pose proof (pow2_pos (63-j)); lia|lia].
Qed.
Lemma cl_acc_view : forall k x y n m, 0 <= x -> (k = CLMULR -> (m + n <= 64)%nat) -> (k = CLMULH -> (m + n <= 65)%nat) ->
  cl_acc k x y (Z.of_nat m) n (view k (clprod x y m)) = view k (clprod x y (m + n)).
Proof.
  induction n; intros m X K1 K2; cbn [cl_acc]; [rewrite Nat.add_0_r; reflexivity|].
  replace (m + S n)%nat with (S m + n)%nat in * by lia.
  rewrite <- (IHn (S m)) by assumption. replace (Z.of_nat (S m)) with (Z.of_nat m + 1) by lia. f_equal.
  cbn [clprod]. rewrite view_lxor. f_equal. destruct (Z.testbit y (Z.of_nat m)); [|destruct k; reflexivity].
  symmetry. apply view_term; [exact X|lia|intro Q; specialize (K2 Q); lia|intro Q; specialize (K1 Q); lia].
Qed.
Let s1 := with_var s0 (upd_var (s_var s0) 0 (V (TInt 64) a)).
Let s2 := with_var s1 (upd_var (s_var s1) 1 (V (TInt 64) b)).
Lemma cl_goal : forall k v m n, lift_mnem c cfg kc i = plain (LiftCLMul i k) i ->
  m = Z.to_nat (match k with CLMULH => 1 | _ => 0 end) ->
  n = Z.to_nat (match k with CLMULH => 63 | CLMULR => 63 | CLMUL => 64 end) ->
  view k (clprod a b m) = 0 -> view k (clprod a b (m + n)) = U 64 v -> Goal_ v.
Proof.
  intros k v m n L M N V0 V.
  eapply (plain_pre c cfg kc i s g [SLet 0 (LoadGp (r_rs1 i) I64); SLet 1 (LoadGp (r_rs2 i) I64)] _ 64 (U 64 v) v s2).
  - rewrite L. reflexivity.
  - transitivity (run c s1 [SLet 1 (LoadGp (r_rs2 i) I64)]); [apply run_let, b64|].
    transitivity (run c s2 []); [apply run_let; apply val_LoadGp64; apply rel_with_var, BR0|reflexivity].
  - apply rel_with_var, rel_with_var, BR0.
  - reflexivity.
  - reflexivity.
  - rewrite <- V. rewrite <- cl_acc_view.
    + rewrite V0. subst m n. rewrite Z2Nat.id by (destruct k; lia).
      replace (Z.to_nat (match k with CLMULR => 63 | _ => 64 end - match k with CLMULH => 1 | _ => 0 end))
        with (Z.to_nat (match k with CLMULH => 63 | CLMULR => 63 | CLMUL => 64 end)) by (destruct k; reflexivity).
      apply cl_loop; [apply Ba|reflexivity|reflexivity|clear; destruct k; lia|clear; destruct k; lia|intro Q; rewrite Q; lia|apply (val_cI c s2 64 0)].
    + apply Ba.
    + intro Q; subst k m n; cbn; lia.
    + intro Q; subst k m n; cbn; lia.
  - lia.
  - apply trunc_range. lia.
  - rewrite sext_same; [reflexivity|lia|apply trunc_range; lia].
  - exact PC.
Qed.
Lemma clprod_bound : forall n x y, inr 64 x -> 0 <= clprod x y n < 2^(64 + Z.of_nat n).
Proof.
  induction n; intros x y X; cbn [clprod].
  - split; [lia|apply pow2_pos; lia].
  - assert (M : 2^(64 + Z.of_nat (S n)) = 2 * 2^(64 + Z.of_nat n)).
    { replace (64 + Z.of_nat (S n)) with (1 + (64 + Z.of_nat n)) by lia. rewrite Z.pow_add_r by lia. reflexivity. }
    apply (lxor_inr (64 + Z.of_nat (S n))); [lia| |].
    + unfold inr. rewrite M. pose proof (IHn x y X). lia.
    + destruct (Z.testbit y (Z.of_nat n)); [|split; [lia|apply pow2_pos; lia]].
      destruct X as [X1 X2]. pose proof (pow2_pos (Z.of_nat n)). unfold inr. rewrite M, Z.pow_add_r by lia. nia.
Qed.
Lemma view_U : forall z, view CLMUL z = U 64 z. Proof. reflexivity. Qed.
Lemma bit_CLMUL : r_mn i = R_CLMUL -> Goal_ (clprod a b 64).
Proof. intro E. apply (cl_goal CLMUL (clprod a b 64) 0 64); [by_ E|reflexivity|reflexivity|reflexivity|]. exact (view_U (clprod a b 64)). Qed.
Lemma view_sh : forall k sh z, In (k, sh) [(CLMULH, 64); (CLMULR, 63)] -> 0 <= z < 2^(64 + sh) ->
  view k z = U 64 (z / 2^sh).
Proof.
  intros k sh z I B.
  assert (S : 0 <= sh) by (cbn [In] in I; destruct I as [I|[I|[]]]; injection I; lia).
  rewrite <- Z.shiftr_div_pow2 by assumption. change U with trunc. rewrite trunc_small.
  - cbn [In] in I; destruct I as [I|[I|[]]]; injection I; intros; subst; reflexivity.
  - rewrite Z.shiftr_div_pow2 by assumption. pose proof (pow2_pos sh S). split; [apply Z.div_pos; lia|].
    apply Z.div_lt_upper_bound; [assumption|]. rewrite <- Z.pow_add_r by lia. rewrite Z.add_comm. apply B.
Qed.
Lemma clprod_S : forall x y n, clprod x y (S n) = Z.lxor (clprod x y n) (if Z.testbit y (Z.of_nat n) then x * 2 ^ Z.of_nat n else 0).
Proof. reflexivity. Qed.
Lemma bit_CLMULH : r_mn i = R_CLMULH -> Goal_ (clprod a b 64 / 2^64).
Proof.
  intro E. apply (cl_goal CLMULH (clprod a b 64 / 2^64) 1 63); [by_ E|reflexivity|reflexivity| |].
  - rewrite clprod_S. change (clprod a b 0) with 0. rewrite Z.lxor_0_l.
    change (Z.of_nat 0) with 0. change (2^0) with 1. rewrite Z.mul_1_r. cbn [view].
    rewrite Z.shiftr_div_pow2 by lia. apply Z.div_small. destruct (Z.testbit b 0); [apply Ba|lia].
  - exact (view_sh CLMULH 64 (clprod a b 64) (or_introl eq_refl) (clprod_bound 64 a b Ba)).
Qed.
(** clmulr: the loop stops at 62, so bit 63 of rs2 is ignored. *)
Lemma clmulr_last : Z.testbit b 63 = false -> clprod a b 64 = clprod a b 63.
Proof.
  intro T. rewrite (clprod_S a b 63). change (Z.of_nat 63) with 63. rewrite T. apply Z.lxor_0_r.
Qed.
Lemma bit_CLMULR : r_mn i = R_CLMULR -> Z.testbit b 63 = false -> Goal_ (clprod a b 64 / 2^63).
Proof.
  intros E T. rewrite (clmulr_last T).
  apply (cl_goal CLMULR (clprod a b 63 / 2^63) 0 63); [by_ E|reflexivity|reflexivity|reflexivity|].
  exact (view_sh CLMULR 63 (clprod a b 63) (or_intror (or_introl eq_refl)) (clprod_bound 63 a b Ba)).
Qed.

(** Operand restrictions: slli.uw shift amount encodable; clmulr as above. *)
Definition bit_pre : Prop :=
  match r_mn i with
  | R_SLLIUW => 0 <= imm < 64
  | R_CLMULR => Z.testbit b 63 = false
  | _ => True
  end.
Theorem bit_correct : forall v, isa_bit (r_mn i) a b imm = Some v -> bit_pre -> Goal_ v.
Proof.
  intros v V P. unfold bit_pre in P. destruct (r_mn i) eqn:E; cbn [isa_bit] in V; try discriminate V;
  apply Some_inj in V; rewrite <- V; clear V.
  all: first
  [ exact (bit_ADDUW E) | exact (bit_SH1ADD E) | exact (bit_SH2ADD E) | exact (bit_SH3ADD E)
  | exact (bit_SH1ADDUW E) | exact (bit_SH2ADDUW E) | exact (bit_SH3ADDUW E) | exact (bit_SLLIUW E P)
  | exact (bit_ANDN E) | exact (bit_ORN E) | exact (bit_XNOR E) | exact (bit_CLZ E) | exact (bit_CLZW E)
  | exact (bit_CTZ E) | exact (bit_CTZW E) | exact (bit_CPOP E) | exact (bit_CPOPW E) | exact (bit_MAX E)
  | exact (bit_MAXU E) | exact (bit_MIN E) | exact (bit_MINU E) | exact (bit_ORCB E) | exact (bit_REV8 E)
  | exact (bit_ROL E) | exact (bit_ROLW E) | exact (bit_ROR E) | exact (bit_RORI E) | exact (bit_RORW E)
  | exact (bit_RORIW E) | exact (bit_SEXTB E) | exact (bit_SEXTH E) | exact (bit_ZEXTH E)
  | exact (bit_CLMUL E) | exact (bit_CLMULH E) | exact (bit_CLMULR E P)
  | exact (bit_BCLR E) | exact (bit_BCLRI E) | exact (bit_BSET E) | exact (bit_BSETI E) | exact (bit_BINV E)
  | exact (bit_BINVI E) | exact (bit_BEXT E) | exact (bit_BEXTI E) ].
Qed.
End Bit.
