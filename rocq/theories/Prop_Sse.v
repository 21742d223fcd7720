(** Properties C37, C56-C60: SSE instructions. *)

From Coq Require Import ZArith Lia ZifyBool List Bool.
From Verif Require Import Bits IR Facet Dsl Rv64 Rv64Spec Rv64Sim Rv64Ex X86 X86Spec X86Arith X86Sim X86Ex X86Sse X86SseSpec X86SseVec X86SseSim X86SseOps X86SseOps4 X86SseStep X86SseStep2 X86SseStep3 X86SseMain X86SseTop X86SseFx.
Import ListNotations.
Open Scope Z_scope.
Ltac Zify.zify_post_hook ::= Z.div_mod_to_equations.

(** ** Concrete states *)
(** A toy floating-point unit: patterns compare as numbers, conversions of
    patterns above 2^31 do not fit, everything else adds its operands. *)
Definition rel_ex (t : ty) (a b : Z) : option comparison := Some (a ?= b).
Definition fpu_ex : FpuOps := fun f s t l =>
  match f, l with
  | FCmp p, [a; b] => Some (b2z (fp_holds p (rel_ex t a b)))
  | FToSI, [a] => if a <? 2 ^ 31 then Some a else None
  | _, l => Some (fold_right Z.add 0 l)
  end.
Lemma fpu_ex_std : fpu_std (H := fpu_ex) rel_ex.
Proof. split; [intros p t a b; reflexivity|]. intros f t a b [-> | ->] _; discriminate. Qed.
Definition zst_ex (r q : Z -> Z) : zst := Zst (xst_ex r (all_set false) 0x1000) (fun n => U 128 (q n)).
Definition zst_of (g : zst) : st :=
  let s := xst_of (z_x g) in with_reg s (fun r => match r with VEC n => Some (z_q g n) | _ => s_reg s r end).
Lemma zrel_ex : forall r q, zrel (zst_of (zst_ex r q)) (zst_ex r q).
Proof.
  intros r q. split.
  - pose proof (xrel_ex r (all_set false) 0x1000) as [A B C D E F J M]. split; try assumption.
    intros f b E1. specialize (J f b E1). destruct f; exact J.
  - intros n N. split; [reflexivity|]. apply trunc_range. lia.
Qed.
Definition si_ex (m : smn) (o0 o1 o2 : sop) : sinst := SInst m o0 o1 o2 0x1000 4.
(** [base + disp] without index. *)
Definition mem_ex (base disp : Z) : xmem := XMemOp (BReg base) None 0 disp 3 8.
Lemma sctx_ex : forall i r q, i_start i = 0x1000 -> s_shape i = true -> good_q xcfg_ex (i_op0 i) = true -> good_q xcfg_ex (i_op1 i) = true ->
  s_ctx c_x xcfg_ex kc_ex i (zst_of (zst_ex r q)) (zst_ex r q).
Proof.
  intros i r q ST SH O0 O1. split; try assumption; try reflexivity.
  - apply zrel_ex.
  - intros n z _ E. discriminate.
  - rewrite ST. reflexivity.
Qed.

(** ** C37: packed integer instructions *)
Definition int_mns : list smn := [
  S_PUNPCKLBW; S_PUNPCKLWD; S_PUNPCKLDQ; S_PUNPCKLQDQ; S_PUNPCKHBW; S_PUNPCKHWD; S_PUNPCKHDQ; S_PUNPCKHQDQ;
  S_PSHUFD; S_PSHUFLW; S_PXOR; S_POR; S_PAND; S_PANDN;
  S_PADDB; S_PADDW; S_PADDD; S_PADDQ; S_PSUBB; S_PSUBW; S_PSUBD; S_PSUBQ; S_PHADDW; S_PHADDD; S_PHSUBW; S_PHSUBD;
  S_PADDSB; S_PADDSW; S_PADDUSB; S_PADDUSW; S_PSUBSB; S_PSUBSW; S_PSUBUSB; S_PSUBUSW; S_PHADDSW; S_PHSUBSW;
  S_PSADBW; S_PMADDUBSW; S_PMULLW; S_PMULLD;
  S_PSLLW; S_PSLLD; S_PSLLQ; S_PSRLW; S_PSRLD; S_PSRLQ; S_PSRAW; S_PSRAD; S_PSLLDQ; S_PSRLDQ;
  S_PALIGNR; S_PACKSSWB; S_PACKSSDW; S_PACKUSWB; S_PACKUSDW;
  S_PINSRB; S_PINSRW; S_PINSRD; S_PINSRQ; S_PEXTRB; S_PEXTRW; S_PEXTRD; S_PEXTRQ;
  S_PAVGB; S_PAVGW; S_PMULHW; S_PMULHUW; S_PMULDQ; S_PMULUDQ; S_PMADDWD;
  S_PCMPEQB; S_PCMPEQW; S_PCMPEQD; S_PCMPEQQ; S_PCMPGTB; S_PCMPGTW; S_PCMPGTD; S_PCMPGTQ;
  S_PMINUB; S_PMINUW; S_PMINUD; S_PMINSB; S_PMINSW; S_PMINSD; S_PMAXUB; S_PMAXUW; S_PMAXUD; S_PMAXSB; S_PMAXSW; S_PMAXSD;
  S_PABSB; S_PABSW; S_PABSD; S_PSIGNB; S_PSIGNW; S_PSIGND; S_PMOVMSKB; S_MOVMSKPS; S_MOVMSKPD;
  S_PMOVSXBW; S_PMOVSXBD; S_PMOVSXBQ; S_PMOVSXWD; S_PMOVSXWQ; S_PMOVSXDQ;
  S_PMOVZXBW; S_PMOVZXBD; S_PMOVZXBQ; S_PMOVZXWD; S_PMOVZXWQ; S_PMOVZXDQ ].
(** Every integer instruction except PSHUFHW, for every operand value, immediate,
    register number and addressing form; a memory operand of 16 bytes must be
    aligned as the architecture demands (otherwise [s_spec] is undefined). *)
Theorem sse_int_correct_partial : forall `{FpuOps} rel c cfg kc i s g g', fpu_std rel -> s_ctx c cfg kc i s g ->
  In (i_mn i) int_mns -> s_spec rel i g = Some g' -> s_lifts c cfg kc i s g'.
Proof.
  intros F rel c cfg kc i s g g' FS C MN E.
  assert (X : i_mn i <> S_PSHUFHW /\ over_src (i_mn i) = 1 /\ over_dst (i_mn i) = 1 /\ cvt_ok i (sadv i g)).
  { unfold cvt_ok, int_mns in *. cbn [In] in MN. repeat destruct MN as [MN|MN]; try contradiction; rewrite <- MN; repeat split; discriminate. }
  destruct X as (X1 & X2 & X3 & X4). eapply sse_step; try eassumption. unfold s_natural. rewrite X2, X3. split; apply mem_al_1.
Qed.
Print Assumptions sse_int_correct_partial.
(** PMADDUBSW with saturation in a lane, from memory. *)
Example sse_int_nv : let i := si_ex S_PMADDUBSW (QX 128 3) (QM 128 (mem_ex 2 0x10)) QN in
  exists s g g', s_ctx c_x xcfg_ex kc_ex i s g /\ In (i_mn i) int_mns /\ s_spec (H := fpu_ex) rel_ex i g = Some g' /\ Ln 16 (z_q g' 3) 3 = 0x8000 /\ z_q g' 4 = z_q g 4.
Proof.
  intros i. exists (zst_of (zst_ex (fun n => 0x80) (fun n => 2 ^ 128 - 1))), (zst_ex (fun n => 0x80) (fun n => 2 ^ 128 - 1)). eexists.
  split; [apply sctx_ex; reflexivity|]. split; [unfold int_mns; cbn; tauto|]. split; [reflexivity|]. split; vm_compute; reflexivity.
Qed.
(** PSHUFHW: whatever the immediate selects, all four high words become word 4 of
    the source (word 7 if the decoder delivers a negative immediate); the result is
    wrong as soon as a selected word differs from that one. *)
Theorem sse_pshufhw_refuted : forall `{FpuOps} rel c cfg kc i s g g', s_ctx c cfg kc i s g ->
  i_mn i = S_PSHUFHW -> s_spec rel i g = Some g' -> exists d r, i_op0 i = QX 128 d /\
  s_lifts c cfg kc i s (set_q (sadv i g) d r) /\
  (forall k, 4 <= k < 8 -> Ln 16 r k = Ln 16 (s_val (sadv i g) (i_op1 i)) (if q_imm (i_op2 i) <? 0 then 7 else 4)) /\
  (forall k, 4 <= k < 8 -> Ln 16 (z_q g' d) k = Ln 16 (s_val (sadv i g) (i_op1 i)) (4 + U 8 (q_imm (i_op2 i)) / 4 ^ (k - 4) mod 4)).
Proof.
  intros F rel c cfg kc i s g g' C MN E. pose proof (sadv_ctx c cfg kc i s g C) as [ZC AT]. destruct C as [HA GB R SH O0 O1 KC IP].
  set (pc := trunc 64 (i_start i + i_len i)) in *.
  unfold s_shape in SH. rewrite MN in SH. cbn [rm_bits Z.ltb Z.compare Pos.compare Pos.compare_cont has_imm negb orb] in SH.
  apply andb_true_iff in SH. destruct SH as [SH IM]. apply andb_true_iff in SH. destruct SH as [S0 S1].
  assert (I0 : exists d, i_op0 i = QX 128 d /\ okr d = true).
  { destruct (i_op0 i) as [|w d|w d|w d|w d]; try discriminate S0. cbn [s_okx128] in S0. apply andb_true_iff in S0. destruct S0. exists d.
    split; [f_equal; lia|assumption]. }
  destruct I0 as (d & I0 & N).
  unfold s_spec in E. fold (sadv i g) in E. unfold s_isa in E. rewrite MN, I0 in E. cbn [comis_ty s_aligned andb] in E.
  destruct (s_aligned S_PSHUFHW (sadv i g) (i_op1 i)) eqn:AL; [|discriminate E]. cbn [sse_fn option_map] in E.
  assert (REG : forall n, okr n = true -> inr 128 (z_q (sadv i g) n)).
  { intros n R1. apply okr_range in R1. exact (proj2 (proj2 R n R1)). }
  assert (IMM : -128 <= q_imm (i_op2 i) < 256) by (destruct (i_op2 i); try discriminate IM; cbn [s_oki q_imm] in *; lia).
  rewrite <- MN in AL.
  destruct (packed_src cfg i (sadv i g) d REG O1 AL S1 ltac:(rewrite MN; reflexivity)) as (QB & LD & _ & IB).
  set (b := s_val (sadv i g) (i_op1 i)) in *.
  assert (LR : forall k, inr 16 (Ln 16 b k)) by (intros; apply Ln_inr; lia).
  exists d, (v128 16 (fun k => if k <? 4 then Ln 16 b k else Ln 16 b (if q_imm (i_op2 i) <? 0 then 7 else 4))). split; [exact I0|]. split; [|split].
  - destruct (L_pshufhw c cfg HA GB kc pc i (sadv i g) d (s_ret s) (Dsl.s_var s) ZC N I0 QB LD IMM _ AT) as (s' & R1 & D1 & D2 & D3).
    exists s'. rewrite arun_pc. fold pc. unfold lift_sse. rewrite MN. auto.
  - intros k K. unfold v128. rewrite Ln_vec; [|lia| |cbn; lia].
    + replace (k <? 4) with false by lia. reflexivity.
    + intros j _. destruct (j <? 4); apply LR.
  - intros k K. apply (f_equal (fun o => match o with Some x => z_q x d | None => 0 end)) in E. cbv beta iota in E. cbn [set_q z_q] in E. rewrite Z.eqb_refl in E. rewrite <- E. fold b. unfold v128. rewrite Ln_vec; [|lia| |cbn; lia].
    + replace (k <? 4) with false by lia. reflexivity.
    + intros j _. destruct (j <? 4); apply LR.
Qed.
Print Assumptions sse_pshufhw_refuted.
Example sse_pshufhw_nv : let i := si_ex S_PSHUFHW (QX 128 3) (QX 128 5) (QI 8 0x1b) in
  exists s g g', s_ctx c_x xcfg_ex kc_ex i s g /\ s_spec (H := fpu_ex) rel_ex i g = Some g' /\
    Ln 16 (z_q g' 3) 4 = 0x7777 /\ Ln 16 (s_val (sadv i g) (i_op1 i)) 4 = 0x4444.
Proof.
  intros i. exists (zst_of (zst_ex (fun n => 0x80) (fun n => 0x77776666555544443333222211110000))), (zst_ex (fun n => 0x80) (fun n => 0x77776666555544443333222211110000)). eexists.
  split; [apply sctx_ex; reflexivity|]. split; [reflexivity|]. split; vm_compute; reflexivity.
Qed.

(** ** C56: moves *)
Definition mov_mns : list smn := [
  S_MOVD; S_MOVQ; S_MOVSS; S_MOVSD; S_MOVUPS; S_MOVUPD; S_MOVAPS; S_MOVAPD; S_MOVDQU; S_MOVDQA; S_LDDQU;
  S_MOVNTPS; S_MOVNTPD; S_MOVNTDQ; S_MOVNTDQA; S_MOVLPS; S_MOVHLPS; S_MOVLPD; S_MOVHPS; S_MOVLHPS; S_MOVHPD;
  S_UNPCKLPS; S_UNPCKLPD; S_UNPCKHPS; S_UNPCKHPD; S_SHUFPD; S_SHUFPS; S_INSERTPS; S_EXTRACTPS; S_MOVSLDUP; S_MOVSHDUP; S_MOVDDUP;
  S_ORPS; S_ORPD; S_ANDPS; S_ANDPD; S_XORPS; S_XORPD; S_ANDNPS; S_ANDNPD ].
(** If scalar memory operands are naturally aligned ([s_natural] is trivial for
    all but MOVSS/MOVSD/MOVLPx/MOVHPx stores and MOVDDUP loads). *)
Theorem sse_move_correct_partial : forall `{FpuOps} rel c cfg kc i s g g', fpu_std rel -> s_ctx c cfg kc i s g ->
  In (i_mn i) mov_mns -> s_natural i g -> s_spec rel i g = Some g' -> s_lifts c cfg kc i s g'.
Proof.
  intros F rel c cfg kc i s g g' FS C MN NA E.
  assert (X : i_mn i <> S_PSHUFHW /\ cvt_ok i (sadv i g)).
  { unfold cvt_ok, mov_mns in *. cbn [In] in MN. repeat destruct MN as [MN|MN]; try contradiction; rewrite <- MN; repeat split; discriminate. }
  destruct X as (X1 & X4). eapply sse_step; eassumption.
Qed.
Print Assumptions sse_move_correct_partial.
(** MOVHPS to memory at an address that is a multiple of 8 but not of 16. *)
Example sse_move_nv : let i := si_ex S_MOVHPS (QM 64 (mem_ex 2 0x18)) (QX 128 3) QN in
  exists s g g', s_ctx c_x xcfg_ex kc_ex i s g /\ In (i_mn i) mov_mns /\ s_natural i g /\ s_spec (H := fpu_ex) rel_ex i g = Some g' /\
    rd_mem (y_m (z_x g')) 0x98 8 = 0xfedcba9876543210 /\ rd_mem (y_m (z_x g')) 0x90 8 = rd_mem (y_m (z_x g)) 0x90 8.
Proof.
  intros i. set (g := zst_ex (fun n => 0x80) (fun n => 0xfedcba98765432100123456789abcdef)). exists (zst_of g), g. eexists.
  split; [apply sctx_ex; reflexivity|]. split; [unfold mov_mns; cbn; tauto|]. split; [split; [exact I|vm_compute; reflexivity]|]. split; [reflexivity|]. split; vm_compute; reflexivity.
Qed.

(** ** C57: floating-point arithmetic, comparison and conversion *)
Definition fp_mns : list smn := [
  S_ADDSS; S_ADDSD; S_ADDPS; S_ADDPD; S_ADDSUBPS; S_ADDSUBPD; S_SUBSS; S_SUBSD; S_SUBPS; S_SUBPD; S_MULSS; S_MULSD; S_MULPS; S_MULPD;
  S_DIVSS; S_DIVSD; S_DIVPS; S_DIVPD; S_HADDPS; S_HADDPD; S_HSUBPS; S_HSUBPD;
  S_MINSS; S_MINSD; S_MINPS; S_MINPD; S_MAXSS; S_MAXSD; S_MAXPS; S_MAXPD; S_COMISS; S_COMISD; S_UCOMISS; S_UCOMISD;
  S_CMPSS; S_CMPSD; S_CMPPS; S_CMPPD; S_SQRTSS; S_SQRTSD; S_SQRTPS; S_SQRTPD;
  S_CVTDQ2PD; S_CVTDQ2PS; S_CVTTPD2DQ; S_CVTTPS2DQ; S_CVTPD2PS; S_CVTPS2PD; S_CVTSD2SS; S_CVTSS2SD; S_CVTTSD2SI; S_CVTTSS2SI; S_CVTSI2SD; S_CVTSI2SS ].
Theorem sse_fp_correct_partial : forall `{FpuOps} rel c cfg kc i s g g', fpu_std rel -> s_ctx c cfg kc i s g ->
  In (i_mn i) fp_mns -> s_natural i g -> cvt_ok i (sadv i g) -> s_spec rel i g = Some g' -> s_lifts c cfg kc i s g'.
Proof.
  intros F rel c cfg kc i s g g' FS C MN NA CV E. eapply sse_step; try eassumption.
  intros X. rewrite X in MN. unfold fp_mns in MN. cbn [In] in MN. repeat destruct MN as [MN|MN]; try contradiction; discriminate.
Qed.
Print Assumptions sse_fp_correct_partial.
(** COMISD of an ordered pair with memory; the flags are those of "less". *)
Example sse_fp_nv : let i := si_ex S_COMISD (QX 128 3) (QM 64 (mem_ex 2 0x11)) QN in
  exists s g g', s_ctx c_x xcfg_ex kc_ex i s g /\ In (i_mn i) fp_mns /\ s_natural i g /\ cvt_ok (H := fpu_ex) i (sadv i g) /\
    s_spec (H := fpu_ex) rel_ex i g = Some g' /\ y_f (z_x g') fCF = Some true /\ y_f (z_x g') fZF = Some false /\ y_f (z_x g') fPF = Some false.
Proof.
  intros i. set (g := zst_ex (fun n => 0x80) (fun n => 77)). exists (zst_of g), g. eexists.
  split; [apply sctx_ex; reflexivity|]. split; [unfold fp_mns; cbn; tauto|]. split; [split; [exact (mem_al_1 _ _)|exact I]|]. split; [exact I|].
  split; [reflexivity|]. repeat split; vm_compute; reflexivity.
Qed.
Example sse_fp_nv2 : let i := si_ex S_MINSD (QX 128 3) (QM 64 (mem_ex 2 0x18)) QN in
  exists s g g', s_ctx c_x xcfg_ex kc_ex i s g /\ In (i_mn i) fp_mns /\ s_natural i g /\ cvt_ok (H := fpu_ex) i (sadv i g) /\
    s_spec (H := fpu_ex) rel_ex i g = Some g' /\ z_q g' 3 = 2 ^ 64 + 77.
Proof.
  intros i. set (g := zst_ex (fun n => 0x80) (fun n => 2 ^ 64 + 77)). exists (zst_of g), g. eexists.
  split; [apply sctx_ex; reflexivity|]. split; [unfold fp_mns; cbn; tauto|]. split; [split; [vm_compute; reflexivity|exact I]|]. split; [exact I|].
  split; [reflexivity|]. vm_compute; reflexivity.
Qed.
(** CVTTSD2SI and CVTTSS2SI of a value that does not fit: the architecture gives
    the integer indefinite value, the lifted code gives poison. *)
Theorem sse_cvtt_refuted : forall `{FpuOps} rel c cfg kc i s g g' t W r, s_ctx c cfg kc i s g ->
  (i_mn i = S_CVTTSD2SI /\ t = TF64 \/ i_mn i = S_CVTTSS2SI /\ t = TF32) -> i_op0 i = QG W r ->
  fop FToSI t (TInt W) [U (tsize t) (s_val (sadv i g) (i_op1 i))] = None -> s_spec rel i g = Some g' ->
  y_r (z_x g') r = 2 ^ (W - 1) /\ exists s', arun c s (lift_sinst c cfg kc i) = Ok s' /\ s_reg s' (GP r) = None.
Proof.
  intros F rel c cfg kc i s g g' t W r C MN I0 FN E. pose proof (sadv_ctx c cfg kc i s g C) as [ZC AT]. destruct C as [HA GB R SH O0 O1 KC IP].
  set (pc := trunc 64 (i_start i + i_len i)) in *.
  assert (S : (W = 32 \/ W = 64) /\ (s_okx (i_op1 i) || s_okm (tsize t) (i_op1 i) = true)).
  { unfold s_shape in SH. rewrite I0 in SH. destruct MN as [[MN ->]|[MN ->]]; rewrite MN in SH; cbn [s_okgw has_imm negb orb tsize] in SH |- *;
      rewrite andb_true_r in SH; apply andb_true_iff in SH; destruct SH as [S0 S1]; (split; [|exact S1]);
      destruct (Z.eqb_spec W 32), (Z.eqb_spec W 64); cbn [andb orb] in S0; auto; discriminate S0. }
  destruct S as [HW S1].
  split.
  - unfold s_spec in E. fold (sadv i g) in E. unfold s_isa in E. destruct MN as [[MN ->]|[MN ->]]; rewrite MN, I0 in E; cbn [comis_ty s_aligned andb] in E;
    match type of E with (if ?q then _ else _) = _ => destruct q; [|discriminate E] end; cbn [sse_out option_map snd] in E;
    injection E as <-; cbn [set_x z_x]; unfold wr_reg, cvtt; cbn [fw_ tsize] in *; rewrite FN; cbn [set_r y_r]; rewrite Z.eqb_refl;
    destruct HW as [-> | ->]; reflexivity.
  - rewrite arun_pc. fold pc.
    assert (FS : exists f, sf f t /\ lift_sse c cfg kc i = LiftSseCvt c cfg kc i f FI).
    { unfold lift_sse. destruct MN as [[MN ->]|[MN ->]]; rewrite MN; eexists; (split; [|reflexivity]); [right|left]; auto. }
    destruct FS as (f & FS & ->). unfold LiftSseCvt. rewrite I0. cbn [q_bits].
    assert (L : ldok cfg (sadv i g) (i_op1 i) t ANone).
    { eapply ld_src with (W := tsize t); [|exact O1|apply mem_al_1|lia]. destruct (s_okx (i_op1 i)); [reflexivity|]. cbn [orb] in *. rewrite S1. apply orb_true_r. }
    assert (X : forall s0, Dsl.s_var s0 1%nat = Some (V t (trunc (tsize t) (s_val (sadv i g) (i_op1 i)))) -> ev c s0 (E1 (OFp1 FToSI (TInt W)) v1) = Ok (Poison (TInt W))).
    { intros s0 VE. unfold ev, v1, vX. cbn [eval leaf_val]. rewrite VE. cbn [bind].
      assert (TI : inr (tsize t) (trunc (tsize t) (s_val (sadv i g) (i_op1 i)))) by (apply trunc_inr; destruct FS as [[-> ->]|[-> ->]]; cbn; lia).
      cbn [sem1]. unfold fp1_sem. cbn [ty_of]. replace (elt t) with (1, t) by (destruct FS as [[-> ->]|[-> ->]]; reflexivity). cbn [elt Z.eqb Pos.eqb].
      unfold vec1. rewrite lanes1 by exact TI. cbn [map seq_ires]. unfold fires.
      change U with trunc in FN. unfold fop in FN. destruct (fpu_op FToSI t (TInt W) _); [discriminate FN|reflexivity]. }
    assert (Y : Zt c pc (sadv i g) (Dsl.s_var s) (s_ret s) (qload c cfg kc 1 (i_op1 i) f ANone ++ [(1, SSet (GP r) (E1 (OFp1 FToSI (TInt W)) v1))])
                  (fun s' => s_reg s' (GP r) = None)).
    { eapply Zt_load; [exact GB|exact ZC| | |].
      - destruct FS as [[-> ->]|[-> ->]]; reflexivity.
      - destruct FS as [[-> ->]|[-> ->]]; exact L.
      - cbn zeta. intros s0 (R0 & P0 & V0 & T0). cbn [arun aok bind run1]. rewrite X.
        + eexists. split; [reflexivity|]. cbn [with_reg s_reg set_cell]. unfold upd_reg. cbn [areg_eqb]. rewrite Z.eqb_refl. reflexivity.
        + rewrite V0. destruct FS as [[-> ->]|[-> ->]]; reflexivity. }
    destruct FS as [[-> ->]|[-> ->]], HW as [-> | ->]; exact (Y _ AT).
Qed.
Print Assumptions sse_cvtt_refuted.
Example sse_cvtt_nv : let i := si_ex S_CVTTSD2SI (QG 32 1) (QX 128 3) QN in
  exists s g g', s_ctx c_x xcfg_ex kc_ex i s g /\ s_spec (H := fpu_ex) rel_ex i g = Some g' /\
    fop (H := fpu_ex) FToSI TF64 (TInt 32) [U 64 (s_val (sadv i g) (i_op1 i))] = None.
Proof.
  intros i. set (g := zst_ex (fun n => 0x80) (fun n => 0x43e0000000000000)). exists (zst_of g), g. eexists.
  split; [apply sctx_ex; reflexivity|]. split; [reflexivity|]. vm_compute. reflexivity.
Qed.

(** ** C58: alignment of memory operands *)
(** The lifted code of an instruction that the architecture executes is defined
    exactly if the operand is naturally aligned: for seven loads and six stores
    ([over_src], [over_dst]) the lifter promises more than the architecture
    demands. *)
Theorem sse_aligned_partial : forall `{FpuOps} rel c cfg kc i s g g', fpu_std rel -> s_ctx c cfg kc i s g -> i_mn i <> S_PSHUFHW ->
  cvt_ok i (sadv i g) -> s_spec rel i g = Some g' ->
  ((exists s', arun c s (lift_sinst c cfg kc i) = Ok s') <-> s_natural i g).
Proof.
  intros F rel c cfg kc i s g g' FS C NP CV E. split.
  - intros (s' & R).
    assert (D : s_natural i g \/ ~ s_natural i g).
    { assert (Q : forall k o, mem_al k (sadv i g) o \/ ~ mem_al k (sadv i g) o) by (intros k o; destruct o; cbn [mem_al]; try (left; exact I); destruct (Z.eq_dec (ea (z_x (sadv i g)) m mod k) 0); auto).
      unfold s_natural. destruct (Q (over_src (i_mn i)) (i_op1 i)), (Q (over_dst (i_mn i)) (i_op0 i)); tauto. }
    destruct D as [D|D]; [exact D|]. rewrite (sse_step_ub c cfg rel kc i s g g' C D E) in R. discriminate R.
  - intros N. destruct (sse_step c cfg rel kc i s g g' FS C NP N CV E) as (s' & R & _). eauto.
Qed.
Print Assumptions sse_aligned_partial.
(** Misaligned scalar operands: fine on the processor, undefined when lifted. *)
Theorem sse_overaligned_refuted : forall `{FpuOps} rel c cfg kc i s g g', s_ctx c cfg kc i s g -> ~ s_natural i g ->
  s_spec rel i g = Some g' -> arun c s (lift_sinst c cfg kc i) = UB.
Proof. intros F rel c cfg kc i s g g' C N E. exact (sse_step_ub c cfg rel kc i s g g' C N E). Qed.
Print Assumptions sse_overaligned_refuted.
Example sse_overaligned_nv : let i := si_ex S_MOVSS (QM 32 (mem_ex 2 0x11)) (QX 128 3) QN in let j := si_ex S_MINSD (QX 128 3) (QM 64 (mem_ex 2 0x14)) QN in
  exists s g, (exists g', s_ctx c_x xcfg_ex kc_ex i s g /\ ~ s_natural i g /\ s_spec (H := fpu_ex) rel_ex i g = Some g') /\
    (exists g', s_ctx c_x xcfg_ex kc_ex j s g /\ ~ s_natural j g /\ s_spec (H := fpu_ex) rel_ex j g = Some g').
Proof.
  intros i j. set (g := zst_ex (fun n => 0x80) (fun n => 77)). exists (zst_of g), g. split; eexists;
  (split; [apply sctx_ex; reflexivity|]); (split; [intros [X Y]; vm_compute in X, Y; discriminate|reflexivity]).
Qed.
(** Packed accesses that the architecture allows at any address work at any address. *)
Theorem sse_unaligned_moves : forall `{FpuOps} rel c cfg kc i s g, fpu_std rel -> s_ctx c cfg kc i s g ->
  unaligned (i_mn i) = true -> exists g', s_spec rel i g = Some g' /\ s_lifts c cfg kc i s g'.
Proof.
  intros F rel c cfg kc i s g FS C U.
  assert (E : exists g', s_spec rel i g = Some g').
  { pose proof (sc_shape _ _ _ _ _ _ C) as SH. unfold s_shape in SH. unfold s_spec, s_isa.
    assert (A : forall gg o, s_aligned (i_mn i) gg o = true) by (intros gg o; destruct o; try reflexivity; cbn [s_aligned]; rewrite U; rewrite orb_true_r; reflexivity).
    rewrite !A. cbn [andb]. destruct (i_mn i); try discriminate U; cbn [comis_ty has_imm negb orb] in *; rewrite andb_true_r in SH;
      destruct (i_op0 i); cbn [s_okx s_okm andb orb] in SH; try discriminate SH; cbn [sse_fn sse_out option_map]; eauto. }
  destruct E as (g' & E). exists g'. split; [exact E|].
  eapply sse_move_correct_partial; try eassumption.
  - destruct (i_mn i); try discriminate U; unfold mov_mns; cbn; tauto.
  - unfold s_natural. replace (over_src (i_mn i)) with 1 by (destruct (i_mn i); try discriminate U; reflexivity).
    replace (over_dst (i_mn i)) with 1 by (destruct (i_mn i); try discriminate U; reflexivity). split; apply mem_al_1.
Qed.
Print Assumptions sse_unaligned_moves.
Example sse_unaligned_nv : let i := si_ex S_MOVUPS (QX 128 3) (QM 128 (mem_ex 2 0x11)) QN in
  exists s g, s_ctx c_x xcfg_ex kc_ex i s g /\ unaligned (i_mn i) = true /\ ea (z_x (sadv i g)) (mem_ex 2 0x11) mod 16 = 1.
Proof.
  intros i. set (g := zst_ex (fun n => 0x80) (fun n => 77)). exists (zst_of g), g.
  split; [apply sctx_ex; reflexivity|]. split; vm_compute; reflexivity.
Qed.

(** ** C59: one instruction, sequences *)
(** The three lists and PSHUFHW are all instructions with a shape. *)
Theorem sse_all_listed : forall i, s_shape i = true -> In (i_mn i) (S_PSHUFHW :: int_mns ++ mov_mns ++ fp_mns).
Proof.
  intros i SH. unfold s_shape in SH. unfold int_mns, mov_mns, fp_mns. cbn [app]. 
  assert (D : forall a b : smn, {a = b} + {a <> b}) by decide equality.
  destruct (in_dec D (i_mn i) (S_PSHUFHW :: int_mns ++ mov_mns ++ fp_mns)) as [X|X]; [exact X|exfalso].
  unfold int_mns, mov_mns, fp_mns in X. destruct (i_mn i); try discriminate SH; apply X; cbn [app In]; repeat (first [left; reflexivity|right]).
Qed.
Print Assumptions sse_all_listed.
Theorem sse_step_partial : forall `{FpuOps} rel c cfg kc i s g g', fpu_std rel -> s_ctx c cfg kc i s g -> i_mn i <> S_PSHUFHW ->
  s_natural i g -> cvt_ok i (sadv i g) -> s_spec rel i g = Some g' -> s_lifts c cfg kc i s g'.
Proof. intros F rel c cfg kc i s g g'. apply sse_step. Qed.
Print Assumptions sse_step_partial.
Theorem sse_sequence_partial : forall `{FpuOps} rel c cfg, fpu_std rel -> c_arch c = X86_64 -> gbase_ok c ->
  forall g l g', sblock c cfg rel g l g' -> l <> [] -> forall s, zrel s g ->
  exists s', arun c s (lift_sitems c cfg l) = Ok s' /\ zrel s' g' /\ pc_value c (s_pc s') 0 = Ok (V (TInt 64) (y_ip (z_x g'))) /\ s_ret s' = s_ret s.
Proof. intros F rel c cfg. apply sse_block. Qed.
Print Assumptions sse_sequence_partial.
(** PXOR, PADDD and a store. *)
Example sse_sequence_nv : exists l g g', l <> [] /\ sblock (H := fpu_ex) c_x xcfg_ex rel_ex g l g' /\ zrel (zst_of g) g /\ z_q g' 3 = z_q g 5 /\
  rd_mem (y_m (z_x g')) 0x90 16 = z_q g 5 /\ z_q g 5 <> 0.
Proof.
  exists [SItem kc_ex (SInst S_PXOR (QX 128 3) (QX 128 3) QN 0x1000 4); SItem kc_ex (SInst S_PADDD (QX 128 3) (QX 128 5) QN 0x1004 4);
          SItem kc_ex (SInst S_MOVDQA (QM 128 (mem_ex 2 0x10)) (QX 128 3) QN 0x1008 5)].
  set (g := zst_ex (fun n => 0x80) (fun n => 77)). exists g. eexists. split; [discriminate|]. split; [|split; [apply zrel_ex|]].
  - do 3 (eapply sb_cons; [reflexivity|reflexivity|reflexivity|intros n z _ E; discriminate E|reflexivity|discriminate|split; first [exact I|apply mem_al_1]|exact I|reflexivity|]).
    apply sb_nil.
  - repeat split; vm_compute; try reflexivity; discriminate.
Qed.

(** ** C60: saving and restoring the register file, control words *)
Theorem fxsave_correct_partial : forall `{FpuOps} c cfg kc i m s g, fx_ctx c cfg kc i m s g -> i_mn i = S_FXSAVE ->
  let ga := sadv i g in let a := ea (z_x ga) m in a mod 16 = 0 ->
  exists g', s_lifts c cfg kc i s g' /\
    (forall k, 0 <= k < 16 -> rd_mem (y_m (z_x g')) (a + 160 + 16 * k) 16 = z_q g k) /\
    (forall o, 416 <= o < 2 ^ 64 -> y_m (z_x g') (U 64 (a + o)) = y_m (z_x g) (U 64 (a + o))) /\
    g' = set_x g (set_m (z_x ga) (y_m (z_x g'))).
Proof.
  intros F c cfg kc i m s g C MN ga a AL. exists (fx_save ga 0 a). split; [apply (fxsave_step c cfg kc i m s g C MN AL)|].
  split; [|split].
  - intros k K. cbn [fx_save set_x z_x set_m y_m]. apply fx_area_xmm; [exact K|]. exact (proj2 (proj2 (fc_rel _ _ _ _ _ _ _ C) k K)).
  - intros o O. cbn [fx_save set_x z_x set_m y_m]. rewrite fx_area_byte by lia. change (Z.of_nat 16) with 16.
    replace (o <? 160) with false by lia. replace (o <? 160 + 16 * 16) with false by lia. reflexivity.
  - reflexivity.
Qed.
Print Assumptions fxsave_correct_partial.
Theorem fxrstor_correct : forall `{FpuOps} c cfg kc i m s g, fx_ctx c cfg kc i m s g -> i_mn i = S_FXRSTOR ->
  let a := ea (z_x (sadv i g)) m in a mod 16 = 0 -> s_lifts c cfg kc i s (fx_load (sadv i g) a).
Proof. intros F c cfg kc i m s g C MN a AL. apply (fxrstor_step c cfg kc i m s g C MN AL). Qed.
Print Assumptions fxrstor_correct.
(** FXSAVE, then anything that leaves the save area alone, then FXRSTOR: the XMM
    registers hold their old values. *)
Theorem fx_roundtrip : forall `{FpuOps} c cfg kc i m s g kc2 j m2 s2 g2, fx_ctx c cfg kc i m s g -> i_mn i = S_FXSAVE ->
  let a := ea (z_x (sadv i g)) m in a mod 16 = 0 ->
  forall g1, (exists s1, arun c s (lift_sinst c cfg kc i) = Ok s1 /\ zrel s1 g1) ->
  fx_ctx c cfg kc2 j m2 s2 g2 -> i_mn j = S_FXRSTOR -> ea (z_x (sadv j g2)) m2 = a ->
  (forall o, 160 <= o < 416 -> y_m (z_x g2) (U 64 (a + o)) = y_m (z_x g1) (U 64 (a + o))) ->
  exists s', arun c s2 (lift_sinst c cfg kc2 j) = Ok s' /\ forall k, 0 <= k < 16 -> s_reg s' (VEC k) = Some (z_q g k).
Proof.
  intros F c cfg kc i m s g kc2 j m2 s2 g2 C MN a AL g1 (s1 & R1 & Z1) C2 MN2 EA ME.
  destruct (fxsave_step c cfg kc i m s g C MN AL) as (s1' & R1' & Z1' & _). rewrite R1 in R1'. injection R1' as <-.
  assert (AL2 : ea (z_x (sadv j g2)) m2 mod 16 = 0) by (rewrite EA; exact AL).
  destruct (fxrstor_step c cfg kc2 j m2 s2 g2 C2 MN2 AL2) as (s' & R2 & Z2 & _).
  exists s'. split; [exact R2|]. intros k K. rewrite (proj1 (proj2 Z2 k K)). f_equal. cbn [fx_load z_q].
  replace ((0 <=? k) && (k <? 16)) with true by lia. rewrite EA. cbn [sadv set_x z_x set_ip y_m].
  rewrite (rd_mem_bytes 16 _ (y_m (z_x g1))).
  - rewrite (rd_mem_bytes 16 _ (s_mem s1)) by (intros; symmetry; apply (xr_m _ _ (proj1 Z1))).
    rewrite (rd_mem_bytes 16 _ (fx_area (y_m (z_x (sadv i g))) 0 (z_q (sadv i g)) a 16)) by (intros; apply (xr_m _ _ (proj1 Z1'))).
    apply fx_area_xmm; [exact K|]. exact (proj2 (proj2 (fc_rel _ _ _ _ _ _ _ C) k K)).
  - intros o O. change (Z.of_nat 16) with 16 in O. replace (a + 160 + 16 * k + o) with (a + (160 + 16 * k + o)) by lia. apply ME. lia.
Qed.
Print Assumptions fx_roundtrip.
(** FSTCW stores 0x37f, STMXCSR 0x1f80, FSTSW (to memory) 0: the reset values, as
    nothing ever changes these words (LDMXCSR and FLDCW are ignored). *)
Theorem x86_control_words : forall `{FpuOps} c cfg kc i m s g w v, fx_ctx c cfg kc i m s g ->
  (i_mn i, w, v) = (S_FSTCW, 16, 0x37f) \/ (i_mn i, w, v) = (S_STMXCSR, 32, 0x1f80) \/ (i_mn i, w, v) = (S_FSTSW, 16, 0) ->
  s_lifts c cfg kc i s (set_x (sadv i g) (set_m (z_x (sadv i g)) (wr_mem (y_m (z_x g)) (ea (z_x (sadv i g)) m) (Z.to_nat (w / 8)) v))).
Proof.
  intros F c cfg kc i m s g w v C MN. apply (ctl_step c cfg kc i m s g w v C).
  - unfold lift_sse. destruct MN as [MN|[MN|MN]]; injection MN as -> -> ->; reflexivity.
  - destruct MN as [MN|[MN|MN]]; injection MN as _ -> _; auto.
  - destruct MN as [MN|[MN|MN]]; injection MN as _ -> ->; unfold inr; lia.
Qed.
Print Assumptions x86_control_words.
(** FXSAVE stores other values for the same words: FCW and MXCSR are 0, which
    restored on a processor unmasks all exceptions. *)
Theorem fxsave_control_refuted : forall `{FpuOps} c cfg kc i m s g, fx_ctx c cfg kc i m s g -> i_mn i = S_FXSAVE ->
  let a := ea (z_x (sadv i g)) m in a mod 16 = 0 ->
  exists g', s_lifts c cfg kc i s g' /\ rd_mem (y_m (z_x g')) a 2 = 0 /\ rd_mem (y_m (z_x g')) (a + 24) 4 = 0.
Proof.
  intros F c cfg kc i m s g C MN a AL. exists (fx_save (sadv i g) 0 a). split; [apply (fxsave_step c cfg kc i m s g C MN AL)|].
  cbn [fx_save set_x z_x set_m y_m]. split.
  - pose proof (fx_area_ctl (y_m (z_x (sadv i g))) 0 (z_q (sadv i g)) a 0 2 ltac:(lia) ltac:(lia)) as X. rewrite Z.add_0_r in X. exact X.
  - rewrite fx_area_ctl by lia. reflexivity.
Qed.
Print Assumptions fxsave_control_refuted.
Example fx_nv : let i := si_ex S_FXSAVE (QM 4096 (mem_ex 2 0x1000)) QN QN in
  exists s g, fx_ctx c_x xcfg_ex kc_ex i (mem_ex 2 0x1000) s g /\ ea (z_x (sadv i g)) (mem_ex 2 0x1000) mod 16 = 0 /\ z_q g 7 = 77.
Proof.
  intros i. set (g := zst_ex (fun n => 0x80) (fun n => 70 + n)). exists (zst_of g), g.
  split; [|split; vm_compute; reflexivity]. split; try reflexivity; [apply zrel_ex|eexists; reflexivity|intros n z _ E; discriminate E].
Qed.
