(** Lifted SSE instructions against the specification: all mnemonics. *)

From Coq Require Import ZArith Lia ZifyBool List Bool.
From Verif Require Import Bits IR Facet Dsl Rv64 Rv64Spec Rv64Sim Rv64Arith X86 X86Spec X86Arith X86Sim X86Ops X86Sse X86SseSpec X86SseVec X86SseSim X86SseOps X86SseOps2 X86SseOps3 X86SseOps4 X86SseStep X86SseStep2 X86SseStep3.
Import ListNotations.
Open Scope Z_scope.
Ltac Zify.zify_post_hook ::= Z.div_mod_to_equations.

(** Instructions whose memory operand the processor lets be unaligned while the
    lifted access promises natural alignment, with that alignment in bytes. *)
Definition over_src (m : smn) : Z :=
  match m with
  | S_MINSS | S_MAXSS | S_CMPSS => 4
  | S_MINSD | S_MAXSD | S_CMPSD | S_MOVDDUP => 8
  | _ => 1
  end.
Definition over_dst (m : smn) : Z :=
  match m with
  | S_MOVSS => 4
  | S_MOVSD | S_MOVLPS | S_MOVLPD | S_MOVHPS | S_MOVHPD => 8
  | _ => 1
  end.
(** Instructions of the form "xmm, xmm/m128". *)
Definition packed (m : smn) : bool :=
  match m with
  | S_PUNPCKLBW | S_PUNPCKLWD | S_PUNPCKLDQ | S_PUNPCKLQDQ | S_PUNPCKHBW | S_PUNPCKHWD | S_PUNPCKHDQ | S_PUNPCKHQDQ
  | S_UNPCKLPS | S_UNPCKLPD | S_UNPCKHPS | S_UNPCKHPD | S_SHUFPD | S_SHUFPS | S_PSHUFD | S_PSHUFLW
  | S_MOVSLDUP | S_MOVSHDUP | S_ADDPS | S_ADDPD | S_ADDSUBPS | S_ADDSUBPD | S_SUBPS | S_SUBPD
  | S_MULPS | S_MULPD | S_DIVPS | S_DIVPD | S_HADDPS | S_HADDPD | S_HSUBPS | S_HSUBPD
  | S_MINPS | S_MINPD | S_MAXPS | S_MAXPD | S_ORPS | S_ORPD | S_ANDPS | S_ANDPD
  | S_XORPS | S_XORPD | S_ANDNPS | S_ANDNPD | S_CMPPS | S_CMPPD | S_SQRTPS | S_SQRTPD
  | S_CVTDQ2PS | S_CVTTPD2DQ | S_CVTTPS2DQ | S_CVTPD2PS | S_PXOR | S_POR | S_PAND | S_PANDN
  | S_PADDB | S_PADDW | S_PADDD | S_PADDQ | S_PSUBB | S_PSUBW | S_PSUBD | S_PSUBQ
  | S_PHADDW | S_PHADDD | S_PHSUBW | S_PHSUBD | S_PADDSB | S_PADDSW | S_PADDUSB | S_PADDUSW
  | S_PSUBSB | S_PSUBSW | S_PSUBUSB | S_PSUBUSW | S_PHADDSW | S_PHSUBSW | S_PSADBW | S_PMADDUBSW
  | S_PMULLW | S_PMULLD | S_PALIGNR | S_PACKSSWB | S_PACKSSDW | S_PACKUSWB | S_PACKUSDW | S_PAVGB
  | S_PAVGW | S_PMULHW | S_PMULHUW | S_PMULDQ | S_PMULUDQ | S_PMADDWD | S_PCMPEQB | S_PCMPEQW
  | S_PCMPEQD | S_PCMPEQQ | S_PCMPGTB | S_PCMPGTW | S_PCMPGTD | S_PCMPGTQ | S_PMINUB | S_PMINUW
  | S_PMINUD | S_PMINSB | S_PMINSW | S_PMINSD | S_PMAXUB | S_PMAXUW | S_PMAXUD | S_PMAXSB
  | S_PMAXSW | S_PMAXSD | S_PABSB | S_PABSW | S_PABSD | S_PSIGNB | S_PSIGNW | S_PSIGND => true
  | _ => false
  end.

Section Main.
Context `{FpuOps}.
(** Truncating conversions whose result fits. *)
Definition cvt_ok (i : sinst) (g : zst) : Prop :=
  let b := s_val g (i_op1 i) in
  match i_mn i with
  | S_CVTTPD2DQ => forall k, 0 <= k < 2 -> fop FToSI TF64 (TInt 32) [Ln 64 b k] <> None
  | S_CVTTPS2DQ => forall k, 0 <= k < 4 -> fop FToSI TF32 (TInt 32) [Ln 32 b k] <> None
  | S_CVTTSD2SI => fop FToSI TF64 (TInt (q_bits (i_op0 i))) [U 64 b] <> None
  | S_CVTTSS2SI => fop FToSI TF32 (TInt (q_bits (i_op0 i))) [U 32 b] <> None
  | _ => True
  end.
Variable rel : ty -> Z -> Z -> option comparison.
Hypothesis FS : fpu_std rel.
Variable c : cenv.
Variable cfg : xcfg.
Hypothesis HA : c_arch c = X86_64.
Hypothesis GB : gbase_ok c.
Variable kc : areg -> konst.
Variable pc : Z.
Notation Zt := (Zt c pc). Notation zdone := (zdone c). Notation ldok := (ldok cfg).
Notation zctx := (zctx c kc pc).

Lemma some_inj : forall (x y : Z), Some x = Some y -> x = y.
Proof. congruence. Qed.
Lemma movsl : forall w b, v128 w (fun k => Ln w b (k - k mod 2)) = v128 w (fun k => Ln w b (k - k mod 2 + 0)).
Proof. intros. unfold v128. apply vec_ext. intros k K. f_equal. lia. Qed.
Lemma cvt_vec : forall t b n, ftype t = true -> 0 <= n -> (forall k, 0 <= k < n -> fop FToSI t (TInt 32) [Ln (fw_ t) b k] <> None) ->
  ovec 32 (fun k => fop FToSI t (TInt 32) [Ln (fw_ t) b k]) (Z.to_nat n) = Some (vec 32 (fun k => cvtt t 32 (Ln (fw_ t) b k)) (Z.to_nat n)).
Proof.
  intros t b n FT P D. assert (W : 0 <= fw_ t) by (destruct t; try discriminate FT; cbn [fw_]; lia).
  remember (Z.to_nat n) as m eqn:M. assert (D' : forall k, 0 <= k < Z.of_nat m -> fop FToSI t (TInt 32) [Ln (fw_ t) b k] <> None) by (intros k K; apply D; lia).
  clear M D P. induction m as [|m IH]; [reflexivity|]. cbn [ovec vec]. rewrite IH by (intros k K; apply D'; lia).
  specialize (D' (Z.of_nat m) ltac:(lia)). unfold cvtt. change U with trunc. rewrite (trunc_small (fw_ t)) by (apply Ln_inr; exact W).
  destruct (fop FToSI t (TInt 32) _); [reflexivity|congruence].
Qed.

Section X.
Variable i : sinst.
Variable g : zst.
Variables w0 d : Z.
Variable rt : bool.
Variable vs : nat -> option rv.
Hypothesis C : zctx g.
Hypothesis N : okr d = true.
Hypothesis I0 : i_op0 i = QX w0 d.
Hypothesis REG : forall n, okr n = true -> inr 128 (z_q g n).
Hypothesis GQ : good_q cfg (i_op1 i) = true.
Hypothesis AL : s_aligned (i_mn i) g (i_op1 i) = true.
Notation a := (z_q g d). Notation b := (s_val g (i_op1 i)).
Notation Goal l r := (Zt g vs rt l (zdone (set_q g d r) rt)).
Ltac inj E := match type of E with Some _ = Some ?r => apply some_inj in E; subst r | _ => idtac end.
Ltac fin := try eassumption; try reflexivity; try (repeat split; reflexivity); try (left; split; reflexivity); try (right; split; reflexivity);
  try (left; reflexivity); try (right; reflexivity); try discriminate; try lia; try (match goal with M : i_mn _ = _ |- _ => rewrite M; reflexivity | L : forall t _, tsize t = 128 -> _ |- _ => apply L; reflexivity end).

Lemma packed_src : s_okx128 (i_op1 i) || s_okm 128 (i_op1 i) = true -> unaligned (i_mn i) = false ->
  q_bits (i_op1 i) = 128 /\ (forall t al, tsize t = 128 -> ldok g (i_op1 i) t al) /\
  match i_op1 i with QX _ _ | QM _ _ => True | _ => False end /\ inr 128 b.
Proof.
  intros SH UN. destruct (i_op1 i) as [|w n|w n|w m|w v]; cbn in SH; try discriminate SH.
  - rewrite orb_false_r in SH. apply andb_true_iff in SH. destruct SH as [W R]. cbn [q_bits s_val]. repeat split; [lia|intros; exact R| |]; apply REG; exact R.
  - apply andb_true_iff in SH. destruct SH as [W M]. assert (w = 128) by lia. subst w. cbn [s_aligned Z.eqb Pos.eqb negb orb] in AL. rewrite UN in AL. cbn [orb] in AL.
    split; [reflexivity|]. split; [|split; [exact I|apply (rd_mem_inr 16)]]. intros t al T. cbn [X86SseSim.ldok]. repeat split; [exact M|exact GQ|lia|].
    destruct al; cbn [aset]; rewrite ?Z.mod_1_r; try reflexivity. rewrite T. change (128 / 8) with 16. lia.
Qed.
Lemma x_packed : forall r, packed (i_mn i) = true -> w0 = 128 -> s_okx128 (i_op1 i) || s_okm 128 (i_op1 i) = true ->
  (has_imm (i_mn i) = true -> -128 <= q_imm (i_op2 i) < 256) -> cvt_ok i g ->
  sse_fn rel (i_mn i) (q_ismem (i_op1 i)) (q_bits (i_op1 i)) (U 8 (q_imm (i_op2 i))) a b = Some r -> Goal (lift_sse c cfg kc i) r.
Proof.
  intros r PK W SH IM CV E. subst w0.
  assert (UN : unaligned (i_mn i) = false) by (destruct (i_mn i); try reflexivity; discriminate PK).
  destruct (packed_src SH UN) as (QB & LD & NG & IB). pose proof (REG d N) as IA.
  unfold cvt_ok in CV.
  destruct (i_mn i) eqn:MN; try discriminate PK; cbn [sse_fn] in E; cbn [has_imm] in IM; try specialize (IM eq_refl); inj E; unfold lift_sse; rewrite MN; cbv iota.
  - (* PUNPCKLBW *) eapply L_unpck with (n := 16) (s := (TInt 8)) (h := 0); fin.
  - (* PUNPCKLWD *) eapply L_unpck with (n := 8) (s := (TInt 16)) (h := 0); fin.
  - (* PUNPCKLDQ *) eapply L_unpck with (n := 4) (s := (TInt 32)) (h := 0); fin.
  - (* PUNPCKLQDQ *) eapply L_unpck with (n := 2) (s := (TInt 64)) (h := 0); fin.
  - (* PUNPCKHBW *) eapply L_unpck with (n := 16) (s := (TInt 8)) (h := 1); fin.
  - (* PUNPCKHWD *) eapply L_unpck with (n := 8) (s := (TInt 16)) (h := 1); fin.
  - (* PUNPCKHDQ *) eapply L_unpck with (n := 4) (s := (TInt 32)) (h := 1); fin.
  - (* PUNPCKHQDQ *) eapply L_unpck with (n := 2) (s := (TInt 64)) (h := 1); fin.
  - (* UNPCKLPS *) eapply L_unpck with (n := 4) (s := TF32) (h := 0); fin.
  - (* UNPCKLPD *) eapply L_unpck with (n := 2) (s := TF64) (h := 0); fin.
  - (* UNPCKHPS *) eapply L_unpck with (n := 4) (s := TF32) (h := 1); fin.
  - (* UNPCKHPD *) eapply L_unpck with (n := 2) (s := TF64) (h := 1); fin.
  - (* SHUFPD *) eapply L_shufpd; fin.
  - (* SHUFPS *) eapply L_shufps; fin.
  - (* PSHUFD *) eapply L_pshufd; fin.
  - (* PSHUFLW *) eapply L_pshuflw; fin.
  - (* MOVSLDUP *) (rewrite (movsl _ (s_val g (i_op1 i)))); eapply L_movdup with (off := 0); fin.
  - (* MOVSHDUP *) eapply L_movdup with (off := 1); fin.
  - (* ADDPS *) eapply L_fpk with (n := 4) (t := TF32); fin.
  - (* ADDPD *) eapply L_fpk with (n := 2) (t := TF64); fin.
  - (* ADDSUBPS *) eapply L_addsub with (n := 4) (t := TF32); fin.
  - (* ADDSUBPD *) eapply L_addsub with (n := 2) (t := TF64); fin.
  - (* SUBPS *) eapply L_fpk with (n := 4) (t := TF32); fin.
  - (* SUBPD *) eapply L_fpk with (n := 2) (t := TF64); fin.
  - (* MULPS *) eapply L_fpk with (n := 4) (t := TF32); fin.
  - (* MULPD *) eapply L_fpk with (n := 2) (t := TF64); fin.
  - (* DIVPS *) eapply L_fpk with (n := 4) (t := TF32); fin.
  - (* DIVPD *) eapply L_fpk with (n := 2) (t := TF64); fin.
  - (* HADDPS *) eapply L_fhz with (n := 4) (t := TF32); fin.
  - (* HADDPD *) eapply L_fhz with (n := 2) (t := TF64); fin.
  - (* HSUBPS *) eapply L_fhz with (n := 4) (t := TF32); fin.
  - (* HSUBPD *) eapply L_fhz with (n := 2) (t := TF64); fin.
  - (* MINPS *) eapply L_minmax with (w := Lt) (n := 4) (t := TF32); fin.
  - (* MINPD *) eapply L_minmax with (w := Lt) (n := 2) (t := TF64); fin.
  - (* MAXPS *) eapply L_minmax with (w := Gt) (n := 4) (t := TF32); fin.
  - (* MAXPD *) eapply L_minmax with (w := Gt) (n := 2) (t := TF64); fin.
  - (* ORPS *) eapply L_bit with (F := Z.lor) (n := 4) (w := 32) (op := Or); fin.
  - (* ORPD *) eapply L_bit with (F := Z.lor) (n := 2) (w := 64) (op := Or); fin.
  - (* ANDPS *) eapply L_bit with (F := Z.land) (n := 4) (w := 32) (op := And); fin.
  - (* ANDPD *) eapply L_bit with (F := Z.land) (n := 2) (w := 64) (op := And); fin.
  - (* XORPS *) eapply L_bit with (F := Z.lxor) (n := 4) (w := 32) (op := Xor); fin.
  - (* XORPD *) eapply L_bit with (F := Z.lxor) (n := 2) (w := 64) (op := Xor); fin.
  - (* ANDNPS *) eapply L_andn with (n := 4) (w := 32); fin.
  - (* ANDNPD *) eapply L_andn with (n := 2) (w := 64); fin.
  - (* CMPPS *) eapply L_cmp with (n := 4) (t := TF32) (imm := (q_imm (i_op2 i))); fin.
  - (* CMPPD *) eapply L_cmp with (n := 2) (t := TF64) (imm := (q_imm (i_op2 i))); fin.
  - (* SQRTPS *) eapply L_sqrt with (n := 4) (t := TF32); fin.
  - (* SQRTPD *) eapply L_sqrt with (n := 2) (t := TF64); fin.
  - (* CVTDQ2PS *) eapply L_cvt_full with (op := FSIToFP) (n := 4) (s := (TInt 32)) (t := TF32); fin.
  - (* CVTTPD2DQ *) eapply L_cvt_half with (op := FToSI) (s := TF64) (t := TInt 32); fin; apply (cvt_vec TF64 _ 2); [reflexivity|lia|exact CV].
  - (* CVTTPS2DQ *) eapply L_cvt_full with (op := FToSI) (n := 4) (s := TF32) (t := TInt 32); fin; apply (cvt_vec TF32 _ 4); [reflexivity|lia|exact CV].
  - (* CVTPD2PS *) eapply L_cvt_half with (op := FTrunc) (s := TF64) (t := TF32); fin.
  - (* PXOR *) eapply L_bit with (F := Z.lxor) (n := 2) (w := 64) (op := Xor); fin.
  - (* POR *) eapply L_bit with (F := Z.lor) (n := 2) (w := 64) (op := Or); fin.
  - (* PAND *) eapply L_bit with (F := Z.land) (n := 2) (w := 64) (op := And); fin.
  - (* PANDN *) eapply L_andn with (n := 2) (w := 64); fin.
  - (* PADDB *) eapply L_arith with (op := Add) (F := Z.add) (n := 16) (w := 8); fin.
  - (* PADDW *) eapply L_arith with (op := Add) (F := Z.add) (n := 8) (w := 16); fin.
  - (* PADDD *) eapply L_arith with (op := Add) (F := Z.add) (n := 4) (w := 32); fin.
  - (* PADDQ *) eapply L_arith with (op := Add) (F := Z.add) (n := 2) (w := 64); fin.
  - (* PSUBB *) eapply L_arith with (op := Sub) (F := Z.sub) (n := 16) (w := 8); fin.
  - (* PSUBW *) eapply L_arith with (op := Sub) (F := Z.sub) (n := 8) (w := 16); fin.
  - (* PSUBD *) eapply L_arith with (op := Sub) (F := Z.sub) (n := 4) (w := 32); fin.
  - (* PSUBQ *) eapply L_arith with (op := Sub) (F := Z.sub) (n := 2) (w := 64); fin.
  - (* PHADDW *) eapply L_horz with (op := Add) (F := Z.add) (n := 8) (w := 16); fin.
  - (* PHADDD *) eapply L_horz with (op := Add) (F := Z.add) (n := 4) (w := 32); fin.
  - (* PHSUBW *) eapply L_horz with (op := Sub) (F := Z.sub) (n := 8) (w := 16); fin.
  - (* PHSUBD *) eapply L_horz with (op := Sub) (F := Z.sub) (n := 4) (w := 32); fin.
  - (* PADDSB *) eapply L_sat with (op := Add) (F := Z.add) (sign := true) (n := 16) (w := 8) (f := V16I8); fin.
  - (* PADDSW *) eapply L_sat with (op := Add) (F := Z.add) (sign := true) (n := 8) (w := 16) (f := V8I16); fin.
  - (* PADDUSB *) eapply L_sat with (op := Add) (F := Z.add) (sign := false) (n := 16) (w := 8) (f := V16I8); fin.
  - (* PADDUSW *) eapply L_sat with (op := Add) (F := Z.add) (sign := false) (n := 8) (w := 16) (f := V8I16); fin.
  - (* PSUBSB *) eapply L_sat with (op := Sub) (F := Z.sub) (sign := true) (n := 16) (w := 8) (f := V16I8); fin.
  - (* PSUBSW *) eapply L_sat with (op := Sub) (F := Z.sub) (sign := true) (n := 8) (w := 16) (f := V8I16); fin.
  - (* PSUBUSB *) eapply L_sat with (op := Sub) (F := Z.sub) (sign := false) (n := 16) (w := 8) (f := V16I8); fin.
  - (* PSUBUSW *) eapply L_sat with (op := Sub) (F := Z.sub) (sign := false) (n := 8) (w := 16) (f := V8I16); fin.
  - (* PHADDSW *) eapply L_hsat with (op := Add) (F := Z.add) (n := 8) (w := 16); fin.
  - (* PHSUBSW *) eapply L_hsat with (op := Sub) (F := Z.sub) (n := 8) (w := 16); fin.
  - (* PSADBW *) eapply L_sad; fin.
  - (* PMADDUBSW *) eapply L_maddubsw; fin.
  - (* PMULLW *) eapply L_arith with (op := Mul) (F := Z.mul) (n := 8) (w := 16); fin.
  - (* PMULLD *) eapply L_arith with (op := Mul) (F := Z.mul) (n := 4) (w := 32); fin.
  - (* PALIGNR *) eapply L_palignr with (imm := (q_imm (i_op2 i))); fin.
  - (* PACKSSWB *) eapply L_pack with (sign := true) (n := 8) (w := 16); fin.
  - (* PACKSSDW *) eapply L_pack with (sign := true) (n := 4) (w := 32); fin.
  - (* PACKUSWB *) eapply L_pack with (sign := false) (n := 8) (w := 16); fin.
  - (* PACKUSDW *) eapply L_pack with (sign := false) (n := 4) (w := 32); fin.
  - (* PAVGB *) eapply L_avg with (n := 16) (w := 8); fin.
  - (* PAVGW *) eapply L_avg with (n := 8) (w := 16); fin.
  - (* PMULHW *) eapply L_mulh with (sign := true); fin.
  - (* PMULHUW *) eapply L_mulh with (sign := false); fin.
  - (* PMULDQ *) eapply L_muldq with (sign := true); fin.
  - (* PMULUDQ *) eapply L_muldq with (sign := false); fin.
  - (* PMADDWD *) eapply L_maddwd; fin.
  - (* PCMPEQB *) eapply L_pcmp_eq with (n := 16) (w := 8); fin.
  - (* PCMPEQW *) eapply L_pcmp_eq with (n := 8) (w := 16); fin.
  - (* PCMPEQD *) eapply L_pcmp_eq with (n := 4) (w := 32); fin.
  - (* PCMPEQQ *) eapply L_pcmp_eq with (n := 2) (w := 64); fin.
  - (* PCMPGTB *) eapply L_pcmp_gt with (n := 16) (w := 8); fin.
  - (* PCMPGTW *) eapply L_pcmp_gt with (n := 8) (w := 16); fin.
  - (* PCMPGTD *) eapply L_pcmp_gt with (n := 4) (w := 32); fin.
  - (* PCMPGTQ *) eapply L_pcmp_gt with (n := 2) (w := 64); fin.
  - (* PMINUB *) eapply L_mm_u with (F := Z.min) (n := 16) (w := 8); fin.
  - (* PMINUW *) eapply L_mm_u with (F := Z.min) (n := 8) (w := 16); fin.
  - (* PMINUD *) eapply L_mm_u with (F := Z.min) (n := 4) (w := 32); fin.
  - (* PMINSB *) eapply L_mm_s with (F := Z.min) (n := 16) (w := 8); fin.
  - (* PMINSW *) eapply L_mm_s with (F := Z.min) (n := 8) (w := 16); fin.
  - (* PMINSD *) eapply L_mm_s with (F := Z.min) (n := 4) (w := 32); fin.
  - (* PMAXUB *) eapply L_mm_u with (F := Z.max) (n := 16) (w := 8); fin.
  - (* PMAXUW *) eapply L_mm_u with (F := Z.max) (n := 8) (w := 16); fin.
  - (* PMAXUD *) eapply L_mm_u with (F := Z.max) (n := 4) (w := 32); fin.
  - (* PMAXSB *) eapply L_mm_s with (F := Z.max) (n := 16) (w := 8); fin.
  - (* PMAXSW *) eapply L_mm_s with (F := Z.max) (n := 8) (w := 16); fin.
  - (* PMAXSD *) eapply L_mm_s with (F := Z.max) (n := 4) (w := 32); fin.
  - (* PABSB *) eapply L_abs with (n := 16) (w := 8); fin.
  - (* PABSW *) eapply L_abs with (n := 8) (w := 16); fin.
  - (* PABSD *) eapply L_abs with (n := 4) (w := 32); fin.
  - (* PSIGNB *) eapply L_sign with (n := 16) (w := 8); fin.
  - (* PSIGNW *) eapply L_sign with (n := 8) (w := 16); fin.
  - (* PSIGND *) eapply L_sign with (n := 4) (w := 32); fin.
Qed.

(** Operands that are not read as 128-bit vectors. *)
Lemma LDN : forall W t, s_okx (i_op1 i) || s_okg (i_op1 i) || s_okm W (i_op1 i) = true -> tsize t <= W -> ldok g (i_op1 i) t ANone.
Proof. intros W t SH T. eapply ld_src; [exact SH|exact GQ|apply mem_al_1|exact T]. Qed.
Lemma LDI : forall W t, s_okx (i_op1 i) || s_okg (i_op1 i) || s_okm W (i_op1 i) = true -> tsize t <= W -> ldok g (i_op1 i) t AImp.
Proof. intros W t SH T. eapply ld_src; [exact SH|exact GQ|apply mem_al_1|exact T]. Qed.
Lemma LDM : forall W t, s_okx (i_op1 i) || s_okg (i_op1 i) || s_okm W (i_op1 i) = true -> tsize t = W -> mem_al (W / 8) g (i_op1 i) -> ldok g (i_op1 i) t AMax.
Proof. intros W t SH T A. eapply ld_src; [exact SH|exact GQ|cbn [aset]; rewrite T; exact A|lia]. Qed.
Lemma LDA : forall t, s_okx (i_op1 i) || s_okg (i_op1 i) || s_okm 128 (i_op1 i) = true -> tsize t = 128 -> unaligned (i_mn i) = false -> ldok g (i_op1 i) t AMax.
Proof.
  intros t SH T UN. eapply ld_src; [exact SH|exact GQ| |rewrite T; lia]. cbn [aset]. rewrite T. destruct (i_op1 i) as [|w n|w n|w m|w v]; cbn in SH; try discriminate SH; cbn [mem_al]; auto.
  apply andb_true_iff in SH. destruct SH as [W M]. assert (w = 128) by lia. subst w. cbn [s_aligned Z.eqb Pos.eqb negb orb] in AL. rewrite UN in AL. cbn [orb] in AL.
  change (128 / 8) with 16. lia.
Qed.
Lemma IB : forall W, s_okx (i_op1 i) || s_okm W (i_op1 i) = true -> 0 <= W <= 128 -> inr 128 b.
Proof.
  intros W SH WB. destruct (i_op1 i) as [|w n|w n|w m|w v]; cbn in SH; try discriminate SH; cbn [s_val].
  - rewrite orb_false_r in SH. apply REG. exact SH.
  - apply andb_true_iff in SH. destruct SH as [W' M]. pose proof (rd_mem_inr (Z.to_nat (w / 8)) (y_m (z_x g)) (ea (z_x g) m)) as I. unfold inr in *.
    assert (2 ^ (8 * Z.of_nat (Z.to_nat (w / 8))) <= 2 ^ 128) by (apply Z.pow_le_mono_r; lia). lia.
Qed.
Lemma SHS : s_okx (i_op1 i) || s_okm 128 (i_op1 i) || s_oki (i_op1 i) = true -> ldok g (i_op1 i) (TInt 64) ANone \/ (exists x v, i_op1 i = QI x v /\ -128 <= v < 256).
Proof.
  intros SH. destruct (s_oki (i_op1 i)) eqn:K.
  - right. destruct (i_op1 i); try discriminate K. cbn [s_oki] in K. eexists. eexists. split; [reflexivity|lia].
  - left. rewrite orb_false_r in SH. apply (LDN 128); [|cbn; lia]. destruct (s_okg (i_op1 i)); rewrite ?orb_true_r; [reflexivity|]. rewrite orb_false_r. exact SH.
Qed.

(** Instructions with an XMM destination that are not of the packed form. *)
Ltac dsrc SH := destruct (i_op1 i) as [|?|?|?|?]; cbn in SH |- *; try discriminate SH; rewrite ?orb_false_r in *; rewrite ?orb_true_r; try reflexivity; try exact SH.
Ltac fins := cbn [tsize]; try reflexivity; try lia; try assumption; try (match goal with S : _ = true |- _ || _ = true => clear - S; dsrc S end).
Lemma x_insertps : i_mn i = S_INSERTPS -> s_okx (i_op1 i) || s_okm 32 (i_op1 i) = true -> inr 128 a ->
  Goal (LiftSseInsertps c cfg kc i)
    (let e := Ln 32 b (if q_ismem (i_op1 i) then 0 else (U 8 (q_imm (i_op2 i)) / 64) mod 4) in
     v128 32 (fun k => if Z.odd (U 8 (q_imm (i_op2 i)) / 2 ^ k) then 0 else if k =? (U 8 (q_imm (i_op2 i)) / 16) mod 4 then e else Ln 32 a k)).
Proof.
  intros MN SH IA. cbn zeta. replace (q_ismem (i_op1 i)) with (negb (q_isreg (i_op1 i))) by (dsrc SH).
  eapply L_insertps; fin.
  - dsrc SH.
  - destruct (q_isreg (i_op1 i)) eqn:RG; [|apply (LDN 32); fins]. destruct (i_op1 i); try discriminate SH; try discriminate RG; cbn in SH |- *; rewrite ?orb_false_r in SH; assumption.
Qed.
Lemma x_movddup : i_mn i = S_MOVDDUP -> match i_op1 i with QX w n => ((w =? 64) || (w =? 128)) && okr n | _ => false end || s_okm 64 (i_op1 i) = true ->
  mem_al (over_src (i_mn i)) g (i_op1 i) -> Goal (LiftSseMovdup c cfg kc i VF64 0) (v128 64 (fun _ => Ln 64 b 0)).
Proof.
  intros MN SH OV. rewrite MN in OV. cbn [over_src] in OV. unfold s_okm in SH.
  destruct (i_op1 i) as [|w n|w n|w m|w v] eqn:I1; try discriminate SH.
  - rewrite orb_false_r in SH. apply andb_true_iff in SH. destruct SH as [W R]. apply orb_prop in W. rewrite <- I1.
    eapply L_movddup with (n := if w =? 64 then 1 else 2); fin.
    + destruct (w =? 64); auto.
    + rewrite I1. cbn [q_bits]. destruct (Z.eqb_spec w 64); lia.
    + rewrite I1. exact R.
  - cbn [orb] in SH. apply andb_true_iff in SH. destruct SH as [W R]. assert (w = 64) by lia. subst w. rewrite <- I1.
    eapply L_movddup with (n := 1); fin; rewrite I1; [reflexivity|]. cbn [X86SseSim.ldok]. repeat split; [exact R|exact GQ|cbn [tsize]; lia|exact OV].
Qed.
Lemma x_cvtsi : forall df t r m, sf df t -> s_okgw 32 (i_op1 i) || s_okgw 64 (i_op1 i) || s_okm 32 (i_op1 i) || s_okm 64 (i_op1 i) = true ->
  m = LiftSseCvt c cfg kc i FI df ->
  option_map (low (tsize t) a) (fop FSIToFP (TInt (q_bits (i_op1 i))) t [U (q_bits (i_op1 i)) b]) = Some r -> inr 128 a -> Goal m r.
Proof.
  intros df t r m F SH -> E IA.
  assert (Q : (q_bits (i_op1 i) = 32 \/ q_bits (i_op1 i) = 64) /\ s_okx (i_op1 i) || s_okg (i_op1 i) || s_okm (q_bits (i_op1 i)) (i_op1 i) = true).
  { destruct (i_op1 i) as [|w n|w n|w m|w v]; cbn in SH |- *; try discriminate SH.
    - rewrite !orb_false_r in *. apply orb_prop in SH. destruct SH as [SH|SH]; apply andb_true_iff in SH; destruct SH; split; auto; lia.
    - apply orb_prop in SH. destruct SH as [SH|SH]; apply andb_true_iff in SH; destruct SH as [W ->]; split; auto; lia. }
  destruct Q as [QB QS].
  eapply L_cvt_sc with (op := FSIToFP) (s := TInt (q_bits (i_op1 i))); fin.
  - destruct QB as [-> | ->]; reflexivity.
  - destruct QB as [-> | ->]; reflexivity.
  - destruct QB as [-> | ->]; reflexivity.
  - apply (LDN (q_bits (i_op1 i))); [exact QS|cbn [tsize]; lia].
Qed.

Lemma x_mixed : forall r, packed (i_mn i) = false -> i_mn i <> S_PSHUFHW -> s_shape i = true ->
  mem_al (over_src (i_mn i)) g (i_op1 i) ->
  sse_fn rel (i_mn i) (q_ismem (i_op1 i)) (q_bits (i_op1 i)) (U 8 (q_imm (i_op2 i))) a b = Some r -> Goal (lift_sse c cfg kc i) r.
Proof.
  pose proof LDN as LDN. pose proof LDI as LDI. pose proof LDM as LDM. pose proof LDA as LDA. pose proof IB as IB. pose proof SHS as SHS.
  pose proof x_insertps as x_insertps. pose proof x_movddup as x_movddup. pose proof x_cvtsi as x_cvtsi.
  intros r PK NP SH OV E. pose proof (REG d N) as IA. unfold s_shape in SH. apply andb_true_iff in SH. destruct SH as [SH IM].
  assert (IM' : has_imm (i_mn i) = true -> -128 <= q_imm (i_op2 i) < 256).
  { intros HI. rewrite HI in IM. cbn [negb orb] in IM. destruct (i_op2 i); try discriminate IM. cbn [s_oki q_imm] in *. lia. }
  clear IM. rewrite I0 in SH.
  destruct (i_mn i) eqn:MN; try discriminate PK; try (exfalso; apply NP; reflexivity); cbn [sse_fn] in E; try discriminate E; clear NP PK;
    cbn [has_imm] in IM'; try specialize (IM' eq_refl); cbn [over_src] in OV; inj E; unfold lift_sse; try rewrite MN; cbv iota;
    cbn [rm_bits s_okx s_okx128 s_okgw s_okm Z.ltb Z.compare Pos.compare Pos.compare_cont] in SH; try rewrite N in SH; cbn [andb orb] in SH; rewrite ?orb_false_r in SH;
    try (rewrite andb_true_r in SH; apply andb_true_iff in SH; destruct SH as [W128 SH]; assert (w0 = 128) by lia).
  - (* MOVD *) eapply L_movq with (w := 32); fin; apply (LDN 32); fins.
  - (* MOVQ *) eapply L_movq with (w := 64); fin; apply (LDN 64); fins.
  - (* MOVSS *) eapply L_movs with (w := 32); fin; apply (LDN 32); fins.
  - (* MOVSD *) eapply L_movs with (w := 64); fin; apply (LDN 64); fins.
  - (* MOVUPS *) eapply L_movdq; fin; [apply (LDN 128); fins|apply (IB 128); [fins|lia]].
  - (* MOVUPD *) eapply L_movdq; fin; [apply (LDN 128); fins|apply (IB 128); [fins|lia]].
  - (* MOVAPS *) eapply L_movdq; fin; [apply LDA; fins|apply (IB 128); [fins|lia]].
  - (* MOVAPD *) eapply L_movdq; fin; [apply LDA; fins|apply (IB 128); [fins|lia]].
  - (* MOVDQU *) eapply L_movdq; fin; [apply (LDN 128); fins|apply (IB 128); [fins|lia]].
  - (* MOVDQA *) eapply L_movdq; fin; [apply LDA; fins|apply (IB 128); [fins|lia]].
  - (* LDDQU *) eapply L_movdq; fin; [apply (LDN 128); fins|apply (IB 128); [fins|lia]].
  - (* MOVNTDQA *) eapply L_movdq; fin; [apply LDA; fins|apply (IB 128); [fins|lia]].
  - (* MOVLPS *) eapply L_movlp; fin; [auto|destruct (i_op1 i); cbn in SH; try discriminate SH; reflexivity|apply (LDN 64); fins|apply (LDN 64); fins].
  - (* MOVHLPS *) eapply L_movhlps; fin; [destruct (i_op1 i); cbn in SH; try discriminate SH; reflexivity|apply (LDN 128); fins].
  - (* MOVLPD *) eapply L_movlp; fin; [auto|destruct (i_op1 i); cbn in SH; try discriminate SH; reflexivity|apply (LDN 64); fins|apply (LDN 64); fins].
  - (* MOVHPS *) eapply L_movhps; fin; apply (LDN 64); fins.
  - (* MOVLHPS *) eapply L_movhps; fin; apply (LDN 64); fins.
  - (* MOVHPD *) eapply L_movhpd; fin; apply (LDN 64); fins.
  - (* INSERTPS *) apply x_insertps; solve [reflexivity|assumption].
  - (* MOVDDUP *) apply x_movddup; solve [reflexivity|assumption].
  - (* ADDSS *) eapply L_fsc with (t := TF32); fin; apply (LDI 32); fins.
  - (* ADDSD *) eapply L_fsc with (t := TF64); fin; apply (LDI 64); fins.
  - (* SUBSS *) eapply L_fsc with (t := TF32); fin; apply (LDI 32); fins.
  - (* SUBSD *) eapply L_fsc with (t := TF64); fin; apply (LDI 64); fins.
  - (* MULSS *) eapply L_fsc with (t := TF32); fin; apply (LDI 32); fins.
  - (* MULSD *) eapply L_fsc with (t := TF64); fin; apply (LDI 64); fins.
  - (* DIVSS *) eapply L_fsc with (t := TF32); fin; apply (LDI 32); fins.
  - (* DIVSD *) eapply L_fsc with (t := TF64); fin; apply (LDI 64); fins.
  - (* MINSS *) eapply L_mms with (w := Lt) (t := TF32); fin; apply (LDM 32); fins.
  - (* MINSD *) eapply L_mms with (w := Lt) (t := TF64); fin; apply (LDM 64); fins.
  - (* MAXSS *) eapply L_mms with (w := Gt) (t := TF32); fin; apply (LDM 32); fins.
  - (* MAXSD *) eapply L_mms with (w := Gt) (t := TF64); fin; apply (LDM 64); fins.
  - (* CMPSS *) eapply L_cmps with (t := TF32) (imm := q_imm (i_op2 i)); fin; apply (LDM 32); fins.
  - (* CMPSD *) eapply L_cmps with (t := TF64) (imm := q_imm (i_op2 i)); fin; apply (LDM 64); fins.
  - (* SQRTSS *) eapply L_sqrts with (t := TF32); fin; apply (LDN 32); fins.
  - (* SQRTSD *) eapply L_sqrts with (t := TF64); fin; apply (LDN 64); fins.
  - (* CVTDQ2PD *) eapply L_cvt_full with (op := FSIToFP) (n := 2) (s := TInt 32) (t := TF64); fin; apply (LDN 64); fins.
  - (* CVTPS2PD *) eapply L_cvt_full with (op := FExt) (n := 2) (s := TF32) (t := TF64); fin; apply (LDN 64); fins.
  - (* CVTSD2SS *) eapply L_cvt_sc with (op := FTrunc) (s := TF64) (t := TF32); fin; apply (LDN 64); fins.
  - (* CVTSS2SD *) eapply L_cvt_sc with (op := FExt) (s := TF32) (t := TF64); fin; apply (LDN 32); fins.
  - (* CVTSI2SD *) apply (x_cvtsi F64 TF64); fin.
  - (* CVTSI2SS *) apply (x_cvtsi F32 TF32); fin.
  - (* PSLLW *) eapply L_shift with (F := (fun x k => U 16 (x * 2 ^ k))) (big := (fun _ => 0)) (n := 8) (w := 16); fin; [left; auto|apply SHS; exact SH].
  - (* PSLLD *) eapply L_shift with (F := (fun x k => U 32 (x * 2 ^ k))) (big := (fun _ => 0)) (n := 4) (w := 32); fin; [left; auto|apply SHS; exact SH].
  - (* PSLLQ *) eapply L_shift with (F := (fun x k => U 64 (x * 2 ^ k))) (big := (fun _ => 0)) (n := 2) (w := 64); fin; [left; auto|apply SHS; exact SH].
  - (* PSRLW *) eapply L_shift with (F := (fun x k => x / 2 ^ k)) (big := (fun _ => 0)) (n := 8) (w := 16); fin; [right; left; auto|apply SHS; exact SH].
  - (* PSRLD *) eapply L_shift with (F := (fun x k => x / 2 ^ k)) (big := (fun _ => 0)) (n := 4) (w := 32); fin; [right; left; auto|apply SHS; exact SH].
  - (* PSRLQ *) eapply L_shift with (F := (fun x k => x / 2 ^ k)) (big := (fun _ => 0)) (n := 2) (w := 64); fin; [right; left; auto|apply SHS; exact SH].
  - (* PSRAW *) eapply L_shift with (F := (fun x k => U 16 (S_ 16 x / 2 ^ k))) (big := (fun x => mask_if 16 (S_ 16 x <? 0))) (n := 8) (w := 16); fin; [right; right; auto|apply SHS; exact SH].
  - (* PSRAD *) eapply L_shift with (F := (fun x k => U 32 (S_ 32 x / 2 ^ k))) (big := (fun x => mask_if 32 (S_ 32 x <? 0))) (n := 4) (w := 32); fin; [right; right; auto|apply SHS; exact SH].
  - (* PSLLDQ *) destruct (i_op1 i) as [|?|?|?|wi vi] eqn:I1; try discriminate SH; cbn [s_oki] in SH; pose proof (fun Q => L_shiftb c cfg HA GB kc pc i g d w0 rt vs C N I0 IA wi vi I1 Q) as T; rewrite MN, I1 in T; apply T; lia.
  - (* PSRLDQ *) destruct (i_op1 i) as [|?|?|?|wi vi] eqn:I1; try discriminate SH; cbn [s_oki] in SH; pose proof (fun Q => L_shiftb c cfg HA GB kc pc i g d w0 rt vs C N I0 IA wi vi I1 Q) as T; rewrite MN, I1 in T; apply T; lia.
  - (* PINSRB *) eapply L_pinsr with (n := 16) (w := 8) (bits := 4) (imm := q_imm (i_op2 i)); fin; apply (LDN 8); fins.
  - (* PINSRW *) eapply L_pinsr with (n := 8) (w := 16) (bits := 3) (imm := q_imm (i_op2 i)); fin; apply (LDN 16); fins.
  - (* PINSRD *) eapply L_pinsr with (n := 4) (w := 32) (bits := 2) (imm := q_imm (i_op2 i)); fin; apply (LDN 32); fins.
  - (* PINSRQ *) eapply L_pinsr with (n := 2) (w := 64) (bits := 1) (imm := q_imm (i_op2 i)); fin; apply (LDN 64); fins.
  - (* PMOVSXBW *) eapply L_sext with (n := 8) (w := 8) (w' := 16); fin; apply (LDN 64); fins.
  - (* PMOVSXBD *) eapply L_sext with (n := 4) (w := 8) (w' := 32); fin; apply (LDN 32); fins.
  - (* PMOVSXBQ *) eapply L_sext with (n := 2) (w := 8) (w' := 64); fin; apply (LDN 16); fins.
  - (* PMOVSXWD *) eapply L_sext with (n := 4) (w := 16) (w' := 32); fin; apply (LDN 64); fins.
  - (* PMOVSXWQ *) eapply L_sext with (n := 2) (w := 16) (w' := 64); fin; apply (LDN 32); fins.
  - (* PMOVSXDQ *) eapply L_sext with (n := 2) (w := 32) (w' := 64); fin; apply (LDN 64); fins.
  - (* PMOVZXBW *) eapply L_zext with (n := 8) (w := 8) (w' := 16); fin; apply (LDN 64); fins.
  - (* PMOVZXBD *) eapply L_zext with (n := 4) (w := 8) (w' := 32); fin; apply (LDN 32); fins.
  - (* PMOVZXBQ *) eapply L_zext with (n := 2) (w := 8) (w' := 64); fin; apply (LDN 16); fins.
  - (* PMOVZXWD *) eapply L_zext with (n := 4) (w := 16) (w' := 32); fin; apply (LDN 64); fins.
  - (* PMOVZXWQ *) eapply L_zext with (n := 2) (w := 16) (w' := 64); fin; apply (LDN 32); fins.
  - (* PMOVZXDQ *) eapply L_zext with (n := 2) (w := 32) (w' := 64); fin; apply (LDN 64); fins.
Qed.
End X.

(** *** Results in memory and in general-purpose registers *)
Section Out.
Variable i : sinst.
Variable g : zst.
Variable rt : bool.
Variable vs : nat -> option rv.
Hypothesis C : zctx g.
Hypothesis REG : forall n, okr n = true -> inr 128 (z_q g n).
Notation b := (s_val g (i_op1 i)).
Ltac fin := try eassumption; try reflexivity; try (repeat split; reflexivity); try (left; split; reflexivity); try (right; split; reflexivity);
  try (left; reflexivity); try (right; reflexivity); try discriminate; try lia.
Ltac rest := first [match goal with L : forall t al, ldok _ _ t al |- _ => apply L end | apply Z.mod_1_r | match goal with A : _ -> _ -> ea _ _ mod 16 = 0 |- _ => exact (A eq_refl eq_refl) end | solve [auto]
  | match goal with I1 : i_op1 _ = QX _ _ |- _ => rewrite I1; reflexivity end].
Lemma pair_inj : forall (x y z u : Z), Some (x, y) = Some (z, u) -> z = x /\ u = y.
Proof. intros. split; congruence. Qed.
Lemma m_out : forall W m w v, i_op0 i = QM W m -> s_shape i = true -> good_q cfg (i_op0 i) = true -> s_aligned (i_mn i) g (i_op0 i) = true ->
  mem_al (over_dst (i_mn i)) g (i_op0 i) -> sse_out (i_mn i) W (U 8 (q_imm (i_op2 i))) b = Some (w, v) ->
  Zt g vs rt (lift_sse c cfg kc i) (zdone (set_x g (set_m (z_x g) (wr_mem (y_m (z_x g)) (ea (z_x g) m) (Z.to_nat (w / 8)) v))) rt).
Proof.
  intros W m w v I0 SH GQ AL OD E. rewrite I0 in *. unfold s_shape in SH. apply andb_true_iff in SH. destruct SH as [SH _]. rewrite I0 in SH.
  assert (X : exists w1 n, i_op1 i = QX w1 n /\ okr n = true /\ wf_mem m = true).
  { destruct (i_mn i); cbn [sse_out] in E; try discriminate E; cbn [s_okx s_okx128 s_okg s_okgw s_okm orb andb] in SH; try discriminate SH;
      destruct (i_op1 i) as [|w1 n|w1 n|w1 m1|w1 v1]; cbn [s_okx s_okx128 s_okg s_okgw s_okm orb andb rm_bits] in SH; rewrite ?andb_false_r in SH; try discriminate SH;
      apply andb_true_iff in SH; destruct SH as [SH1 SH2]; exists w1, n; (split; [reflexivity|]);
      apply andb_true_iff in SH1; destruct SH1 as [_ SH1]; try (match type of SH2 with _ && _ = true => apply andb_true_iff in SH2; destruct SH2 as [_ SH2] end); auto. }
  destruct X as (w1 & n & I1 & R1 & WF). cbn [good_q] in GQ. cbn [mem_al] in OD.
  assert (LDX : forall t al, ldok g (i_op1 i) t al) by (intros; rewrite I1; exact R1).
  assert (IB : inr 128 b) by (rewrite I1; apply REG; exact R1).
  assert (AL16 : W = 128 -> unaligned (i_mn i) = false -> ea (z_x g) m mod 16 = 0).
  { intros -> UN. cbn [s_aligned Z.eqb Pos.eqb negb orb] in AL. rewrite UN in AL. cbn [orb] in AL. lia. }
  destruct (i_mn i) eqn:MN; cbn [sse_out] in E; try discriminate E; cbn [s_okx s_okx128 s_okg s_okgw s_okm orb andb rm_bits] in SH; try discriminate SH;
    apply andb_true_iff in SH; destruct SH as [SH1 SH2]; apply andb_true_iff in SH1; destruct SH1 as [SH1 _]; apply Z.eqb_eq in SH1; subst W;
    cbn [over_dst] in OD; apply pair_inj in E; destruct E as [-> ->]; unfold lift_sse; rewrite MN; cbv iota;
    try (assert (QB : q_bits (i_op1 i) = 128) by (rewrite I1 in SH2 |- *; cbn [s_okx128 q_bits] in *; apply andb_true_iff in SH2; destruct SH2; lia)).
  - (* MOVD *) eapply M_movq with (w := 32); fin; rest.
  - (* MOVQ *) eapply M_movq with (w := 64); fin; rest.
  - (* MOVSS *) eapply M_movs with (w := 32); fin; rest.
  - (* MOVSD *) eapply M_movs with (w := 64); fin; rest.
  - (* MOVUPS *) eapply M_movdq; fin; rest.
  - (* MOVUPD *) eapply M_movdq; fin; rest.
  - (* MOVAPS *) eapply M_movdq; fin; rest.
  - (* MOVAPD *) eapply M_movdq; fin; rest.
  - (* MOVDQU *) eapply M_movdq; fin; rest.
  - (* MOVDQA *) eapply M_movdq; fin; rest.
  - (* MOVNTPS *) eapply M_movnt with (n := 4) (s := TF32); fin; rest.
  - (* MOVNTPD *) eapply M_movnt with (n := 2) (s := TF64); fin; rest.
  - (* MOVNTDQ *) eapply M_movnt with (n := 2) (s := (TInt 64)); fin; rest.
  - (* MOVLPS *) eapply M_movlp; fin; rest.
  - (* MOVLPD *) eapply M_movlp; fin; rest.
  - (* MOVHPS *) eapply M_movhps; fin; rest.
  - (* MOVHPD *) eapply M_movhpd; fin; rest.
  - (* EXTRACTPS *) eapply M_pextr with (n := 4) (s := TF32) (bits := 2); fin; rest.
  - (* PEXTRB *) eapply M_pextr with (n := 16) (s := (TInt 8)) (bits := 4); fin; rest.
  - (* PEXTRW *) eapply M_pextr with (n := 8) (s := (TInt 16)) (bits := 3); fin; rest.
  - (* PEXTRD *) eapply M_pextr with (n := 4) (s := (TInt 32)) (bits := 2); fin; rest.
  - (* PEXTRQ *) eapply M_pextr with (n := 2) (s := (TInt 64)) (bits := 1); fin; rest.
Qed.
Lemma g_out : forall W r w v, i_op0 i = QG W r -> s_shape i = true -> good_q cfg (i_op1 i) = true -> cvt_ok i g ->
  sse_out (i_mn i) W (U 8 (q_imm (i_op2 i))) b = Some (w, v) ->
  Zt g vs rt (lift_sse c cfg kc i) (zdone (set_x g (wr_reg (z_x g) 64 r v)) rt).
Proof.
  intros W r w v I0 SH GQ CV E. unfold s_shape in SH. apply andb_true_iff in SH. destruct SH as [SH _]. rewrite I0 in SH.
  assert (CT : forall f t W1, sf f t -> LiftSseCvt c cfg kc i f FI = lift_sse c cfg kc i -> W = 32 \/ W = 64 -> okr r = true ->
     s_okx (i_op1 i) || s_okm W1 (i_op1 i) = true -> tsize t <= W1 -> fop FToSI t (TInt W) [U (tsize t) b] <> None -> v = cvtt t W b ->
     Zt g vs rt (lift_sse c cfg kc i) (zdone (set_x g (wr_reg (z_x g) 64 r v)) rt)).
  { intros f t W1 F <- HW R S TS D ->. unfold cvtt. replace (fw_ t) with (tsize t) by (destruct F as [[-> ->]|[-> ->]]; reflexivity).
    destruct (fop FToSI t (TInt W) [U (tsize t) b]) as [z|] eqn:Z1; [|congruence].
    eapply G_cvtt with (t := t); try eassumption.
    eapply ld_src with (W := W1); [|exact GQ|apply mem_al_1|exact TS].
    destruct (s_okx (i_op1 i)); [reflexivity|]. cbn [orb] in *. rewrite S. apply orb_true_r. }
  destruct (s_okx (i_op1 i)) eqn:SX.
  2: { assert (QQ : s_okx128 (i_op1 i) = false) by (destruct (i_op1 i); try reflexivity; cbn in SX |- *; rewrite SX; apply andb_false_r).
       destruct (i_mn i) eqn:MN; cbn [sse_out] in E; try discriminate E; cbn [s_okx s_okx128 s_okm andb orb rm_bits] in SH; rewrite ?SX, ?QQ in SH; rewrite ?andb_false_r, ?orb_false_r in SH;
         try discriminate SH; cbn [orb andb] in SH; try (destruct (rm_bits _ <? 128); discriminate SH);
         apply pair_inj in E; destruct E as [-> ->]; apply andb_true_iff in SH; destruct SH as [SH1 SH2].
       - apply (CT F64 TF64 64); [right; auto|unfold lift_sse; rewrite MN; reflexivity| | |exact SH2|cbn; lia| |reflexivity].
         + cbn [s_okgw] in SH1. lia.
         + cbn [s_okgw] in SH1. destruct (okr r); [reflexivity|rewrite !andb_false_r in SH1; discriminate SH1].
         + unfold cvt_ok in CV. rewrite MN, I0 in CV. exact CV.
       - apply (CT F32 TF32 32); [left; auto|unfold lift_sse; rewrite MN; reflexivity| | |exact SH2|cbn; lia| |reflexivity].
         + cbn [s_okgw] in SH1. lia.
         + cbn [s_okgw] in SH1. destruct (okr r); [reflexivity|rewrite !andb_false_r in SH1; discriminate SH1].
         + unfold cvt_ok in CV. rewrite MN, I0 in CV. exact CV. }
  assert (X : exists w1 n, i_op1 i = QX w1 n /\ okr n = true) by (destruct (i_op1 i); try discriminate SX; eauto).
  destruct X as (w1 & n & I1 & R1).
  assert (LDX : forall t al, ldok g (i_op1 i) t al) by (intros; rewrite I1; exact R1).
  destruct (i_mn i) eqn:MN; cbn [sse_out] in E; try discriminate E; cbn [s_okx s_okx128 s_okg s_okgw s_okm orb andb rm_bits Z.ltb Z.compare Pos.compare Pos.compare_cont] in SH; try discriminate SH;
    apply pair_inj in E; destruct E as [-> ->]; rewrite ?SX, ?orb_false_r, ?andb_true_r in SH;
    try (assert (RR : okr r = true) by (destruct (okr r); [reflexivity|rewrite ?andb_false_r in SH; discriminate SH]));
    try (assert (QB : q_bits (i_op1 i) = 128) by (rewrite I1 in SH |- *; cbn [s_okx128 q_bits] in *; clear CT; lia));
    try (apply (CT F64 TF64 64); [right; auto|unfold lift_sse; rewrite MN; reflexivity|clear CT; lia|exact RR|reflexivity|cbn; lia|unfold cvt_ok in CV; rewrite MN, I0 in CV; exact CV|reflexivity]);
    try (apply (CT F32 TF32 32); [left; auto|unfold lift_sse; rewrite MN; reflexivity|clear CT; lia|exact RR|reflexivity|cbn; lia|unfold cvt_ok in CV; rewrite MN, I0 in CV; exact CV|reflexivity]);
    try (assert (WW : W = 32 \/ W = 64) by (clear CT; lia));
    unfold lift_sse; rewrite MN; cbv iota; clear CT.
  - (* MOVD *) eapply G_movq with (w := 32); fin; rest.
  - (* MOVQ *) eapply G_movq with (w := 64); fin; rest.
  - (* EXTRACTPS *) eapply G_pextr with (n := 4) (s := TF32) (bits := 2); fin; rest.
  - (* PEXTRB *) eapply G_pextr with (n := 16) (s := (TInt 8)) (bits := 4); fin; rest.
  - (* PEXTRW *) eapply G_pextr with (n := 8) (s := (TInt 16)) (bits := 3); fin; rest.
  - (* PEXTRD *) eapply G_pextr with (n := 4) (s := (TInt 32)) (bits := 2); fin; rest.
  - (* PEXTRQ *) eapply G_pextr with (n := 2) (s := (TInt 64)) (bits := 1); fin; rest.
  - (* PMOVMSKB *) eapply G_movmsk with (n := 16) (w := 8); fin; rest.
  - (* MOVMSKPS *) eapply G_movmsk with (n := 4) (w := 32); fin; rest.
  - (* MOVMSKPD *) eapply G_movmsk with (n := 2) (w := 64); fin; rest.
Qed.
End Out.

Lemma x_comis : forall i g w0 d rt vs r t, zctx g -> okr d = true -> i_op0 i = QX w0 d -> comis_ty (i_mn i) = Some t -> good_q cfg (i_op1 i) = true ->
  s_okx (i_op1 i) || s_okm (fw_ t) (i_op1 i) = true -> r = rel t (U (fw_ t) (z_q g d)) (U (fw_ t) (s_val g (i_op1 i))) ->
  Zt g vs rt (lift_sse c cfg kc i) (zdone (set_x g (comis_flags r (z_x g))) rt).
Proof.
  intros i g w0 d rt vs r t C N I0 T GQ SH ->.
  assert (X : exists f, sf f t /\ lift_sse c cfg kc i = LiftSseComis c cfg kc i f).
  { unfold lift_sse. destruct (i_mn i); try discriminate T; injection T as <-; eexists; (split; [|reflexivity]); [left|right|left|right]; auto. }
  destruct X as (f & F & ->). replace (fw_ t) with (tsize t) in * by (destruct F as [[-> ->]|[-> ->]]; reflexivity).
  eapply L_comis; try eassumption.
  eapply ld_src with (W := tsize t); [|exact GQ|apply mem_al_1|lia].
  destruct (s_okx (i_op1 i)); [reflexivity|]. cbn [orb] in *. rewrite SH. apply orb_true_r.
Qed.
Definition sse_pre (i : sinst) (g : zst) : Prop :=
  s_shape i = true /\ good_q cfg (i_op0 i) = true /\ good_q cfg (i_op1 i) = true /\ i_mn i <> S_PSHUFHW /\
  mem_al (over_src (i_mn i)) g (i_op1 i) /\ mem_al (over_dst (i_mn i)) g (i_op0 i) /\ cvt_ok i g.
Lemma sse_body : forall i g g' vs rt, zctx g -> sse_pre i g -> s_isa rel i g = Some g' -> Zt g vs rt (lift_sse c cfg kc i) (zdone g' rt).
Proof.
  intros i g g' vs rt C (SH & G0 & G1 & NP & OS & OD & CV) E s A.
  assert (REG : forall n, okr n = true -> inr 128 (z_q g n)).
  { intros n R. apply okr_range in R. destruct A as ([_ Q] & _). exact (proj2 (Q n R)). }
  revert s A. change (Zt g vs rt (lift_sse c cfg kc i) (zdone g' rt)).
  unfold s_isa in E. destruct (s_aligned (i_mn i) g (i_op0 i)) eqn:A0; [|discriminate E]. destruct (s_aligned (i_mn i) g (i_op1 i)) eqn:A1; [|discriminate E].
  cbn [andb] in E. destruct (comis_ty (i_mn i)) as [t|] eqn:T.
  - injection E as <-.
    assert (X : exists w0 d, i_op0 i = QX w0 d /\ okr d = true /\ s_okx (i_op1 i) || s_okm (fw_ t) (i_op1 i) = true).
    { unfold s_shape in SH. apply andb_true_iff in SH. destruct SH as [SH _].
      destruct (i_mn i); try discriminate T; injection T as <-; cbn [rm_bits Z.ltb Z.compare Pos.compare Pos.compare_cont] in SH;
        apply andb_true_iff in SH; destruct SH as [S0 S1]; destruct (i_op0 i); try discriminate S0; eauto 6. }
    destruct X as (w0 & d & I0 & N & S1). eapply x_comis; try eassumption. rewrite I0. reflexivity.
  - destruct (i_op0 i) as [|w0 d|w0 d|w0 m|w0 v] eqn:I0; try discriminate E.
    + destruct (sse_fn rel (i_mn i) _ _ _ _ _) as [r|] eqn:F; [|discriminate E]. injection E as <-.
      assert (N : okr d = true).
      { unfold s_shape in SH. rewrite I0 in SH. apply andb_true_iff in SH. destruct SH as [SH _]. cbn [s_okx s_okx128 s_okg s_okgw s_okm] in SH.
        destruct (okr d); [reflexivity|]. rewrite ?andb_false_r in SH.
        destruct (i_mn i); cbn [andb orb rm_bits Z.ltb Z.compare Pos.compare Pos.compare_cont] in SH; try discriminate SH. }
      destruct (packed (i_mn i)) eqn:PK.
      * assert (X : w0 = 128 /\ s_okx128 (i_op1 i) || s_okm 128 (i_op1 i) = true /\ (has_imm (i_mn i) = true -> -128 <= q_imm (i_op2 i) < 256)).
        { unfold s_shape in SH. rewrite I0 in SH. apply andb_true_iff in SH. destruct SH as [SH IM]. cbn [s_okx s_okx128 s_okg s_okgw s_okm] in SH. rewrite N in SH.
          assert (Y : ((w0 =? 128) && true) && (s_okx128 (i_op1 i) || s_okm 128 (i_op1 i)) = true).
          { clear - SH PK. destruct (i_mn i); try discriminate PK; exact SH. }
          apply andb_true_iff in Y. destruct Y as [Y1 Y2]. split; [clear - Y1; lia|]. split; [exact Y2|].
          intros HI. rewrite HI in IM. cbn [negb orb] in IM. destruct (i_op2 i); try discriminate IM. cbn [s_oki q_imm] in *. clear - IM. lia. }
        destruct X as (W & S1 & IM). eapply x_packed; eassumption.
      * eapply x_mixed; eassumption.
    + destruct (sse_out (i_mn i) w0 _ _) as [[w v]|] eqn:F; [|discriminate E]. injection E as <-. cbn [snd]. eapply g_out; eassumption.
    + destruct (sse_out (i_mn i) w0 _ _) as [[w v]|] eqn:F; [|discriminate E]. injection E as <-. cbn [fst snd].
      rewrite <- I0 in *. eapply m_out; eassumption.
Qed.
End Main.
