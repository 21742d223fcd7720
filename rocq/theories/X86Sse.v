(** Model of the SSE part of the x86-64 instruction lifter:
    /repo/src/x86-64/lifter-sse.cc, its dispatch in lifter.cc:200-431 and the
    vector part of lifter-operand.cc. *)

From Coq Require Import ZArith Lia List Bool.
From Verif Require Import Bits IR Facet Dsl Rv64 X86.
Import ListNotations.
Open Scope Z_scope.

(** Mnemonics (fadec's FDI_SSE_ constants and four others) with a case in
    lifter.cc:211-431. Fences and prefetches (lifter.cc:200-210) have no effect
    on the modelled state and are left out. *)
Inductive smn :=
| S_FXSAVE | S_FXRSTOR | S_FSTCW | S_FLDCW | S_FSTSW | S_STMXCSR | S_LDMXCSR
| S_MOVD | S_MOVQ | S_MOVSS | S_MOVSD
| S_MOVUPS | S_MOVUPD | S_MOVAPS | S_MOVAPD | S_MOVDQU | S_MOVDQA | S_LDDQU
| S_MOVNTPS | S_MOVNTPD | S_MOVNTDQ | S_MOVNTDQA
| S_MOVLPS | S_MOVHLPS | S_MOVLPD | S_MOVHPS | S_MOVLHPS | S_MOVHPD
| S_PUNPCKLBW | S_PUNPCKLWD | S_PUNPCKLDQ | S_PUNPCKLQDQ
| S_PUNPCKHBW | S_PUNPCKHWD | S_PUNPCKHDQ | S_PUNPCKHQDQ
| S_UNPCKLPS | S_UNPCKLPD | S_UNPCKHPS | S_UNPCKHPD
| S_SHUFPD | S_SHUFPS | S_PSHUFD | S_PSHUFLW | S_PSHUFHW | S_INSERTPS | S_EXTRACTPS
| S_MOVSLDUP | S_MOVSHDUP | S_MOVDDUP
| S_ADDSS | S_ADDSD | S_ADDPS | S_ADDPD | S_ADDSUBPS | S_ADDSUBPD
| S_SUBSS | S_SUBSD | S_SUBPS | S_SUBPD | S_MULSS | S_MULSD | S_MULPS | S_MULPD
| S_DIVSS | S_DIVSD | S_DIVPS | S_DIVPD | S_HADDPS | S_HADDPD | S_HSUBPS | S_HSUBPD
| S_MINSS | S_MINSD | S_MINPS | S_MINPD | S_MAXSS | S_MAXSD | S_MAXPS | S_MAXPD
| S_ORPS | S_ORPD | S_ANDPS | S_ANDPD | S_XORPS | S_XORPD | S_ANDNPS | S_ANDNPD
| S_COMISS | S_COMISD | S_UCOMISS | S_UCOMISD
| S_CMPSS | S_CMPSD | S_CMPPS | S_CMPPD | S_SQRTSS | S_SQRTSD | S_SQRTPS | S_SQRTPD
| S_CVTDQ2PD | S_CVTDQ2PS | S_CVTTPD2DQ | S_CVTTPS2DQ | S_CVTPD2PS | S_CVTPS2PD | S_CVTSD2SS | S_CVTSS2SD
| S_CVTTSD2SI | S_CVTTSS2SI | S_CVTSI2SD | S_CVTSI2SS
| S_PXOR | S_POR | S_PAND | S_PANDN
| S_PADDB | S_PADDW | S_PADDD | S_PADDQ | S_PSUBB | S_PSUBW | S_PSUBD | S_PSUBQ
| S_PHADDW | S_PHADDD | S_PHSUBW | S_PHSUBD
| S_PADDSB | S_PADDSW | S_PADDUSB | S_PADDUSW | S_PSUBSB | S_PSUBSW | S_PSUBUSB | S_PSUBUSW | S_PHADDSW | S_PHSUBSW
| S_PSADBW | S_PMADDUBSW | S_PMULLW | S_PMULLD
| S_PSLLW | S_PSLLD | S_PSLLQ | S_PSRLW | S_PSRLD | S_PSRLQ | S_PSRAW | S_PSRAD | S_PSLLDQ | S_PSRLDQ
| S_PALIGNR | S_PACKSSWB | S_PACKSSDW | S_PACKUSWB | S_PACKUSDW
| S_PINSRB | S_PINSRW | S_PINSRD | S_PINSRQ | S_PEXTRB | S_PEXTRW | S_PEXTRD | S_PEXTRQ
| S_PAVGB | S_PAVGW | S_PMULHW | S_PMULHUW | S_PMULDQ | S_PMULUDQ | S_PMADDWD
| S_PCMPEQB | S_PCMPEQW | S_PCMPEQD | S_PCMPEQQ | S_PCMPGTB | S_PCMPGTW | S_PCMPGTD | S_PCMPGTQ
| S_PMINUB | S_PMINUW | S_PMINUD | S_PMINSB | S_PMINSW | S_PMINSD
| S_PMAXUB | S_PMAXUW | S_PMAXUD | S_PMAXSB | S_PMAXSW | S_PMAXSD
| S_PABSB | S_PABSW | S_PABSD | S_PSIGNB | S_PSIGNW | S_PSIGND
| S_PMOVMSKB | S_MOVMSKPS | S_MOVMSKPD
| S_PMOVSXBW | S_PMOVSXBD | S_PMOVSXBQ | S_PMOVSXWD | S_PMOVSXWQ | S_PMOVSXDQ
| S_PMOVZXBW | S_PMOVZXBD | S_PMOVZXBQ | S_PMOVZXWD | S_PMOVZXWQ | S_PMOVZXDQ.

(** Operands (instr.h:72-115) with their size in bits: FD_RT_VEC register,
    FD_RT_GPL register, memory, immediate (the decoder's int64_t). *)
Inductive sop := QN | QX (w n : Z) | QG (w r : Z) | QM (w : Z) (m : xmem) | QI (w v : Z).
Record sinst := SInst { i_mn : smn; i_op0 : sop; i_op1 : sop; i_op2 : sop; i_start : Z; i_len : Z }.

(** instr.h:82 bits(), 84-94. *)
Definition q_bits (o : sop) : Z := match o with QN => 0 | QX w _ | QG w _ | QM w _ | QI w _ => w end.
Definition q_isreg (o : sop) : bool := match o with QX _ _ | QG _ _ => true | _ => false end.
Definition q_isvec (o : sop) : bool := match o with QX _ _ => true | _ => false end.
Definition q_ismem (o : sop) : bool := match o with QM _ _ => true | _ => false end.
Definition q_isimm (o : sop) : bool := match o with QI _ _ => true | _ => false end.
Definition q_imm (o : sop) : Z := match o with QI _ v => v | _ => 0 end.
(** reg().ri *)
Definition q_ri (o : sop) : Z := match o with QX _ n => n | QG _ r => r | _ => 0 end.

(** A statement together with the alignment in bytes that the emitted load or
    store promises (1 for every other statement). *)
Definition astm : Type := Z * stm.
Definition A1 (l : list stm) : list astm := map (pair 1) l.

(** lifter-private.h:44-53. *)
Inductive align := AImp | AMax | ANone.
(** lifter-operand.cc:145-155 ll_operand_set_alignment. *)
Definition aset (t : ty) (a : align) (sse : bool) : Z :=
  match a with
  | AImp => if sse then tsize t / 8 else 1
  | AMax => tsize t / 8
  | ANone => 1
  end.

Section Lift.
Variable c : cenv.
Variable cfg : xcfg.
Variable kc : areg -> konst.

Definition sAddr (m : xmem) : dexp := OpAddrK c cfg kc m 7.

(** lifter-operand.cc:157-180 OpLoad for vector operands; the result is bound to
    temporary [x]. Immediates occur only as op.imm() in this file. *)
Definition qload (x : nat) (o : sop) (f : facet) (a : align) : list astm :=
  let f := facet_Resolve f (q_bits o) in
  match o with
  | QX _ n => [(1, SLet x (rG (VEC n) f))]
  | QG _ r => [(1, SLet x (rG (GP r) f))]
  | QM _ m => [(aset (facet_type f) a false, SLoad x (facet_type f) (sAddr m))]
  | _ => [(1, SLet x eAssert)]
  end.
(** lifter-operand.cc:215-226 OpStoreVec; [t] is the type of the value. *)
Definition qstore (o : sop) (t : ty) (e : dexp) (a : align) : list astm :=
  match o with
  | QM _ m => [(aset t a true, SStore e (sAddr m))]
  | QX _ n => [(1, SMerge (VEC n) e)]
  | QG _ r => [(1, SMerge (GP r) e)]
  | _ => [(1, SLet 0 eAssert)]
  end.
(** lifter-operand.cc:198-213 OpStoreGp (default alignment) with 180-196
    StoreGpFacet. *)
Definition gstore (o : sop) (t : ty) (e : dexp) : list astm :=
  match o with
  | QM _ m => [(aset t ANone false, SStore e (sAddr m))]
  | QG w r => if tsize t =? w then A1 (StoreGpFacet (GP r) (facet_In w) e) else [(1, SLet 0 eAssert)]
  | _ => [(1, SLet 0 eAssert)]
  end.

(** ** Helpers *)
Definition v1 : dexp := vX 1.
Definition v2 : dexp := vX 2.
Definition TV (n w : Z) : ty := TVec n (TInt w).
(** llvm::Constant::getNullValue. *)
Definition eNull (t : ty) : dexp := EConst t 0.
(** irb.CreateVectorSplat of a constant, Constant::getIntegerValue. *)
Definition eSplat (n w z : Z) : dexp := E1 (OSplat n) (cI w z).
Definition eShuf (m : list Z) (a b : dexp) : dexp := E2 (OShuf m) a b.
(** irb.CreateNot / CreateNeg of a vector. *)
Definition eVNot (n w : Z) (a : dexp) : dexp := eXor a (EConst (TV n w) (-1)).
Definition eVNeg (n w : Z) (a : dexp) : dexp := eSub (eNull (TV n w)) a.
Definition zseq (n : Z) : list Z := map Z.of_nat (seq 0 (Z.to_nat n)).
(** Element count and type of a vector facet. *)
Definition fcnt (f : facet) : Z := match facet_type f with TVec n _ => n | _ => 1 end.
Definition felt (f : facet) : ty := match facet_type f with TVec _ t => t | t => t end.
Definition fw (f : facet) : Z := tsize (felt f).

(** ** lifter-sse.cc *)

(** 61-75 LiftFxsave, 77-89 LiftFxrstor. The alignment assumption becomes the
    alignment of the accesses. *)
Definition LiftFxsave (i : sinst) : list astm :=
  match i_op0 i with
  | QM _ m =>
    (1, SLet 1 (sAddr m)) :: (16, SStore (EConst (TV 160 8) 0) v1) ::
    map (fun k => (16, SStore (rG (VEC k) I128) (eGep 1 v1 (cI 64 (160 + 16 * k))))) (zseq 16)
  | _ => A1 [SLet 0 eAssert]
  end.
Definition LiftFxrstor (i : sinst) : list astm :=
  match i_op0 i with
  | QM _ m =>
    (1, SLet 1 (sAddr m)) ::
    concat (map (fun k => [(16, SLoad 2 (facet_type V2I64) (eGep 1 v1 (cI 64 (160 + 16 * k)))); (1, SSet (VEC k) v2)]) (zseq 16))
  | _ => A1 [SLet 0 eAssert]
  end.
(** 91-101 LiftFstcw, LiftFstsw, LiftStmxcsr. *)
Definition LiftFstcw (i : sinst) : list astm := gstore (i_op0 i) (TInt 16) (cI 16 895).
Definition LiftFstsw (i : sinst) : list astm := gstore (i_op0 i) (TInt 16) (cI 16 0).
Definition LiftStmxcsr (i : sinst) : list astm := gstore (i_op0 i) (TInt 32) (cI 32 8064).

(** 103-115 LiftSseMovq. *)
Definition LiftSseMovq (i : sinst) (f : facet) : list astm :=
  let w := facet_size f in
  qload 1 (i_op1 i) f ANone ++
  if q_isvec (i_op0 i)
  then qstore (i_op0 i) (TV (128 / w) w) (E2 (OInsert 0) (eNull (TV (128 / w) w)) v1) AImp
  else gstore (i_op0 i) (facet_type f) v1.
(** 117-127 LiftSseMovScalar. *)
Definition LiftSseMovScalar (i : sinst) (f : facet) : list astm :=
  let w := facet_size f in
  qload 1 (i_op1 i) f ANone ++
  (if q_ismem (i_op1 i) then qstore (i_op0 i) (TV (128 / w) w) (eNull (TV (128 / w) w)) AImp else []) ++
  qstore (i_op0 i) (facet_type f) v1 AImp.
(** 129-131 LiftSseMovdq. *)
Definition LiftSseMovdq (i : sinst) (f : facet) (a : align) : list astm :=
  qload 1 (i_op1 i) f a ++ qstore (i_op0 i) (facet_type f) v1 a.
(** 133-143 LiftSseMovntStore (the non-temporal hint has no effect here). *)
Definition LiftSseMovntStore (i : sinst) (f : facet) : list astm :=
  let f' := facet_Resolve f (q_bits (i_op1 i)) in
  qload 1 (i_op1 i) f AMax ++
  match i_op0 i with
  | QM _ m => [(tsize (facet_type f') / 8, SStore v1 (sAddr m))]
  | _ => A1 [SLet 0 eAssert]
  end.
(** 145-157 LiftSseMovlp. *)
Definition LiftSseMovlp (i : sinst) : list astm :=
  if q_isreg (i_op0 i) && q_isreg (i_op1 i) then
    match i_mn i with
    | S_MOVHLPS =>
      qload 1 (i_op1 i) V4F32 ANone ++
      qstore (i_op0 i) (TVec 2 TF32) (eShuf [2; 3] v1 (eNull (TVec 4 TF32))) AImp
    | _ => A1 [SLet 0 eAssert]
    end
  else
    let f := match i_mn i with S_MOVLPS => V2F32 | _ => F64 end in
    qload 1 (i_op1 i) f ANone ++ qstore (i_op0 i) (facet_type f) v1 AImp.
(** 159-179 LiftSseMovhps. *)
Definition LiftSseMovhps (i : sinst) : list astm :=
  if q_ismem (i_op0 i) then
    qload 1 (i_op1 i) V4F32 ANone ++
    qstore (i_op0 i) (TVec 2 TF32) (eShuf [2; 3] v1 (eNull (TVec 4 TF32))) AImp
  else
    qload 1 (i_op0 i) V4F32 ANone ++ qload 2 (i_op1 i) V2F32 ANone ++
    qstore (i_op0 i) (TVec 4 TF32)
      (eShuf [0; 1; 4; 5] v1 (eShuf [0; 1; 2; 3] v2 (eNull (TVec 2 TF32)))) AImp.
(** 181-192 LiftSseMovhpd. *)
Definition LiftSseMovhpd (i : sinst) : list astm :=
  if q_ismem (i_op0 i) then
    qload 1 (i_op1 i) V2F64 ANone ++ qstore (i_op0 i) TF64 (E1 (OExtract 1) v1) AImp
  else
    qload 1 (i_op0 i) V2F64 ANone ++ qload 2 (i_op1 i) F64 ANone ++
    qstore (i_op0 i) (TVec 2 TF64) (E2 (OInsert 1) v1 v2) AImp.

(** 194-207 horzToVert. *)
Definition horz1 (n : Z) : list Z := map (fun k => 2 * k) (zseq n).
Definition horz2 (n : Z) : list Z := map (fun k => 2 * k + 1) (zseq n).

(** 209-223 LiftSseBinOp for an integer operation. *)
Definition LiftSseBinOp (i : sinst) (op : binop) (horz : bool) (f : facet) : list astm :=
  let f0 := facet_Resolve f (q_bits (i_op0 i)) in
  let n := fcnt f0 in
  if negb horz && (match op with Xor => true | _ => false end) && q_isreg (i_op0 i) && q_isreg (i_op1 i) &&
     (q_ri (i_op0 i) =? q_ri (i_op1 i)) then
    qstore (i_op0 i) (facet_type f0) (eNull (facet_type f0)) AImp
  else
    qload 1 (i_op0 i) f AImp ++ qload 2 (i_op1 i) f AImp ++
    qstore (i_op0 i) (facet_type f0)
      (if horz then eBin op (eShuf (horz1 n) v1 v2) (eShuf (horz2 n) v1 v2) else eBin op v1 v2) AImp.
(** The same for a floating-point operation. *)
Definition LiftSseFBinOp (i : sinst) (op : fpname) (horz : bool) (f : facet) : list astm :=
  let f0 := facet_Resolve f (q_bits (i_op0 i)) in
  let n := fcnt f0 in
  let fop := fun a b => E2 (OFp2 op (facet_type f0)) a b in
  qload 1 (i_op0 i) f AImp ++ qload 2 (i_op1 i) f AImp ++
  qstore (i_op0 i) (facet_type f0)
    (if horz then fop (eShuf (horz1 n) v1 v2) (eShuf (horz2 n) v1 v2) else fop v1 v2) AImp.
(** 225-237 LiftSseAddSub. *)
Definition LiftSseAddSub (i : sinst) (f : facet) : list astm :=
  let f0 := facet_Resolve f (q_bits (i_op0 i)) in
  let n := fcnt f0 in
  qload 1 (i_op0 i) f AMax ++ qload 2 (i_op1 i) f AMax ++
  qstore (i_op0 i) (facet_type f0)
    (eShuf (map (fun k => k + (if Z.odd k then n else 0)) (zseq n))
       (E2 (OFp2 FSub (facet_type f0)) v1 v2) (E2 (OFp2 FAdd (facet_type f0)) v1 v2)) AImp.
(** 239-243 LiftSseAndn. *)
Definition LiftSseAndn (i : sinst) (f : facet) : list astm :=
  let f0 := facet_Resolve f (q_bits (i_op0 i)) in
  qload 1 (i_op0 i) f AMax ++ qload 2 (i_op1 i) f AMax ++
  qstore (i_op0 i) (facet_type f0) (eAnd (eVNot (fcnt f0) (fw f0) v1) v2) AImp.

(** llvm::FCmpInst::Predicate numbers (InstrTypes.h). *)
Definition FOEQ := 1. Definition FOGT := 2. Definition FOLT := 4. Definition FOLE := 5. Definition FORD := 7.
Definition FUNO := 8. Definition FUEQ := 9. Definition FUGT := 10. Definition FUGE := 11. Definition FULT := 12. Definition FUNE := 14.
(** irb.CreateFCmp on operands of type [t]. *)
Definition eFCmp (p : Z) (t : ty) (a b : dexp) : dexp := E2 (OFp2 (FCmp p) (cmp_ty t)) a b.

(** 245-256 LiftSseComis. *)
Definition LiftSseComis (i : sinst) (f : facet) : list astm :=
  let t := facet_type f in
  qload 1 (i_op0 i) f ANone ++ qload 2 (i_op1 i) f ANone ++
  A1 [SSet ZF (eFCmp FUEQ t v1 v2); SSet CF (eFCmp FULT t v1 v2); SSet PF (eZExt 8 (eFCmp FORD t v1 v2));
      SSet AF (cI 1 0); SSet OF (cI 1 0); SSet SF (cI 1 0)].
(** 258-282 LiftSseCmp. *)
Definition cmp_pred (imm : Z) : option Z :=
  if imm =? 0 then Some FOEQ else if imm =? 1 then Some FOLT else if imm =? 2 then Some FOLE
  else if imm =? 3 then Some FUNO else if imm =? 4 then Some FUNE else if imm =? 5 then Some FUGE
  else if imm =? 6 then Some FUGT else if imm =? 7 then Some FORD else None.
Definition int_ty (t : ty) : ty := match t with TVec n e => TVec n (TInt (tsize e)) | _ => TInt (tsize t) end.
Definition LiftSseCmp (i : sinst) (f : facet) : list astm :=
  match cmp_pred (q_imm (i_op2 i)) with
  | None => A1 [SLet 0 eAssert]
  | Some p =>
    let t := facet_type (facet_Resolve f (q_bits (i_op0 i))) in
    qload 1 (i_op0 i) f AMax ++ qload 2 (i_op1 i) f AMax ++
    qstore (i_op0 i) (int_ty t) (eCast CSExt (int_ty t) (eFCmp p t v1 v2)) AImp
  end.
(** 284-290 LiftSseMinmax. *)
Definition LiftSseMinmax (i : sinst) (p : Z) (f : facet) : list astm :=
  let t := facet_type (facet_Resolve f (q_bits (i_op0 i))) in
  qload 1 (i_op0 i) f AMax ++ qload 2 (i_op1 i) f AMax ++
  qstore (i_op0 i) t (eSel (eFCmp p t v1 v2) v1 v2) AImp.
(** 292-295 LiftSseSqrt. *)
Definition LiftSseSqrt (i : sinst) (f : facet) : list astm :=
  let t := facet_type (facet_Resolve f (q_bits (i_op1 i))) in
  qload 1 (i_op1 i) f ANone ++ qstore (i_op0 i) t (E1 (OFp1 FSqrt t) v1) AImp.
(** 297-322 LiftSseCvt; CastInst::getCastOpcode(src, true, dst, true). *)
Definition cast_op (s d : ty) : fpname :=
  match is_fp s, is_fp d with
  | false, _ => FSIToFP
  | true, false => FToSI
  | true, true => if tsize d <? tsize s then FTrunc else FExt
  end.
Definition LiftSseCvt (i : sinst) (sf df : facet) : list astm :=
  let df := match df with FI => facet_Resolve FI (q_bits (i_op0 i)) | _ => df end in
  let t := facet_type df in
  let e := E1 (OFp1 (cast_op (felt (facet_Resolve sf (q_bits (i_op1 i)))) (felt df)) t) v1 in
  qload 1 (i_op1 i) sf ANone ++
  match t with
  | TInt _ => gstore (i_op0 i) t e
  | TVec _ el => if tsize t =? 64 then qstore (i_op0 i) (TVec 4 el) (eShuf [0; 1; 2; 3] e (eNull t)) AImp
                 else qstore (i_op0 i) t e AImp
  | _ => qstore (i_op0 i) t e AImp
  end.

(** 324-348 LiftSseUnpck. *)
Definition unpck_mask (m : smn) : list Z :=
  match m with
  | S_PUNPCKLBW => [0; 16; 1; 17; 2; 18; 3; 19; 4; 20; 5; 21; 6; 22; 7; 23]
  | S_PUNPCKHBW => [8; 24; 9; 25; 10; 26; 11; 27; 12; 28; 13; 29; 14; 30; 15; 31]
  | S_PUNPCKLWD => [0; 8; 1; 9; 2; 10; 3; 11]
  | S_PUNPCKHWD => [4; 12; 5; 13; 6; 14; 7; 15]
  | S_UNPCKLPS | S_PUNPCKLDQ => [0; 4; 1; 5]
  | S_UNPCKLPD | S_PUNPCKLQDQ => [0; 2]
  | S_UNPCKHPS | S_PUNPCKHDQ => [2; 6; 3; 7]
  | S_UNPCKHPD | S_PUNPCKHQDQ => [1; 3]
  | _ => []
  end.
Definition LiftSseUnpck (i : sinst) (f : facet) : list astm :=
  qload 1 (i_op0 i) f ANone ++ qload 2 (i_op1 i) f AMax ++
  qstore (i_op0 i) (facet_type f) (eShuf (unpck_mask (i_mn i)) v1 v2) AImp.

(** 350-356 LiftSseShufpd. *)
Definition LiftSseShufpd (i : sinst) : list astm :=
  let imm := q_imm (i_op2 i) in
  let mask := [if Z.odd imm then 1 else 0; if Z.odd (Z.shiftr imm 1) then 3 else 2] in
  qload 1 (i_op0 i) VF64 ANone ++ qload 2 (i_op1 i) VF64 AMax ++
  qstore (i_op0 i) (TVec 2 TF64) (eShuf mask v1 v2) AImp.
(** (imm >> 2*i) & 3 of an int64_t. *)
Definition sel2 (imm k : Z) : Z := Z.land (Z.shiftr imm (2 * k)) 3.
(** 358-366 LiftSseShufps. *)
Definition LiftSseShufps (i : sinst) : list astm :=
  let imm := q_imm (i_op2 i) in
  let mask := map (fun k => (if k <? 2 then 0 else 4) + sel2 imm k) (zseq 4) in
  qload 1 (i_op0 i) VF32 ANone ++ qload 2 (i_op1 i) VF32 AMax ++
  qstore (i_op0 i) (TVec 4 TF32) (eShuf mask v1 v2) AImp.
(** 368-375 LiftSsePshufd. *)
Definition LiftSsePshufd (i : sinst) : list astm :=
  let mask := map (sel2 (q_imm (i_op2 i))) (zseq 4) in
  qload 1 (i_op1 i) VI32 AMax ++ qstore (i_op0 i) (TV 4 32) (eShuf mask v1 v1) AImp.
(** 377-384 LiftSsePshufw: the loop variable runs from [off], and is also the
    shift count. *)
Definition LiftSsePshufw (i : sinst) (off : Z) : list astm :=
  let mask := map (fun k => if (off <=? k) && (k <? off + 4) then off + sel2 (q_imm (i_op2 i)) k else k) (zseq 8) in
  qload 1 (i_op1 i) VI16 AMax ++ qstore (i_op0 i) (TV 8 16) (eShuf mask v1 v1) AImp.
(** 386-412 LiftSseInsertps. *)
Definition LiftSseInsertps (i : sinst) : list astm :=
  let imm := q_imm (i_op2 i) in
  let count_s := Z.land (Z.shiftr imm 6) 3 in
  let count_d := Z.land (Z.shiftr imm 4) 3 in
  let zmask := Z.land imm 15 in
  let ins := if q_isreg (i_op1 i) then E2 (OInsert count_d) v1 (E1 (OExtract count_s) v2)
             else E2 (OInsert count_d) v1 v2 in
  let res := if zmask =? 0 then ins
             else eShuf (map (fun k => if Z.testbit zmask k then 4 else k) (zseq 4)) ins (eNull (TVec 4 TF32)) in
  qload 1 (i_op0 i) V4F32 ANone ++
  qload 2 (i_op1 i) (if q_isreg (i_op1 i) then V4F32 else F32) ANone ++
  qstore (i_op0 i) (TVec 4 TF32) res AImp.
(** 414-420 LiftSsePinsr. *)
Definition LiftSsePinsr (i : sinst) (vf sf : facet) (mask : Z) : list astm :=
  let f0 := facet_Resolve vf (q_bits (i_op0 i)) in
  qload 1 (i_op0 i) vf ANone ++ qload 2 (i_op1 i) sf ANone ++
  qstore (i_op0 i) (facet_type f0) (E2 (OInsert (Z.land (q_imm (i_op2 i)) mask)) v1 v2) AImp.
(** 422-437 LiftSsePextr. *)
Definition LiftSsePextr (i : sinst) (vf : facet) (mask : Z) : list astm :=
  let f1 := facet_Resolve vf (q_bits (i_op1 i)) in
  let ext := E1 (OExtract (Z.land (q_imm (i_op2 i)) mask)) v1 in
  qload 1 (i_op1 i) vf ANone ++
  match i_op0 i with
  | QG _ r =>
    let ext := match felt f1 with TInt _ => ext | _ => eBitCast (TInt (fw f1)) ext end in
    [(1, SSet (GP r) (eZExt 64 ext))]
  | _ => gstore (i_op0 i) (felt f1) ext
  end.
(** 439-447 LiftSseMovdup. *)
Definition LiftSseMovdup (i : sinst) (f : facet) (off : Z) : list astm :=
  let f1 := facet_Resolve f (q_bits (i_op1 i)) in
  let mask := map (fun k => Z.land k 254 + off) (zseq (128 / fw f1)) in
  qload 1 (i_op1 i) f AMax ++ qstore (i_op0 i) (TVec (128 / fw f1) (felt f1)) (eShuf mask v1 v1) AImp.

(** 449-483 LiftSsePshiftElement. *)
Definition LiftSsePshiftElement (i : sinst) (op : binop) (f : facet) : list astm :=
  let f0 := facet_Resolve f (q_bits (i_op0 i)) in
  let n := fcnt f0 in
  let w := fw f0 in
  let sar := match op with AShr => true | _ => false end in
  let max := cI 64 (w - 1) in
  let shift := if sar then eSel (eCmp UGT v2 max) max v2 else v2 in
  let res := eBin op v1 (E1 (OSplat n) (eTrunc w shift)) in
  qload 1 (i_op0 i) f ANone ++
  (if q_isimm (i_op1 i) then A1 [SLet 2 (cI 64 (q_imm (i_op1 i)))] else qload 2 (i_op1 i) I64 ANone) ++
  qstore (i_op0 i) (TV n w)
    (if sar then res else eSel (eCmp ULT shift (cI 64 w)) res (eNull (TV n w))) AImp.
(** 485-497 LiftSsePshiftBytes. *)
Definition LiftSsePshiftBytes (i : sinst) : list astm :=
  let shift := Z.min (trunc 32 (q_imm (i_op1 i))) 16 in
  let right := match i_mn i with S_PSRLDQ => true | _ => false end in
  let mask := map (fun k => k + (if right then shift else 16 - shift)) (zseq 16) in
  let zero := eNull (TV 16 8) in
  qload 1 (i_op0 i) V16I8 ANone ++
  qstore (i_op0 i) (TV 16 8) (if right then eShuf mask v1 zero else eShuf mask zero v1) AImp.
(** 499-522 LiftSsePalignr. *)
Definition LiftSsePalignr (i : sinst) : list astm :=
  let imm := trunc 32 (q_imm (i_op2 i)) in
  let zero := eNull (TV 16 8) in
  let mask := map (fun k => k + Z.land imm 15) (zseq 16) in
  let res :=
    if imm =? 0 then v2
    else if imm =? 16 then v1
    else if 32 <=? imm then zero
    else if 16 <? imm then eShuf mask v1 zero
    else eShuf mask v2 v1 in
  qload 1 (i_op0 i) V16I8 AMax ++ qload 2 (i_op1 i) V16I8 AMax ++
  qstore (i_op0 i) (TV 16 8) res AImp.
(** 524-540 LiftSsePavg. *)
Definition LiftSsePavg (i : sinst) (f : facet) : list astm :=
  let f0 := facet_Resolve f (q_bits (i_op0 i)) in
  let n := fcnt f0 in
  let w := fw f0 in
  let ones := eSplat n (w * 2) 1 in
  let sum := eAdd (eAdd (eCast CZExt (TV n (2 * w)) v1) (eCast CZExt (TV n (2 * w)) v2)) ones in
  qload 1 (i_op0 i) f ANone ++ qload 2 (i_op1 i) f ANone ++
  qstore (i_op0 i) (TV n w) (eCast CTrunc (TV n w) (eLShr sum ones)) AImp.
(** 542-554 LiftSsePmulhw. *)
Definition LiftSsePmulhw (i : sinst) (cast : castop) : list astm :=
  let mul := eMul (eCast cast (TV 8 32) v1) (eCast cast (TV 8 32) v2) in
  qload 1 (i_op0 i) VI16 ANone ++ qload 2 (i_op1 i) VI16 ANone ++
  qstore (i_op0 i) (TV 8 16) (eCast CTrunc (TV 8 16) (eLShr mul (eSplat 8 32 16))) AImp.
(** 556-565 LiftSsePmuldq. *)
Definition LiftSsePmuldq (i : sinst) (cast : castop) : list astm :=
  qload 1 (i_op0 i) VI32 ANone ++ qload 2 (i_op1 i) VI32 ANone ++
  qstore (i_op0 i) (TV 2 64)
    (eMul (eCast cast (TV 2 64) (eShuf [0; 2] v1 v1)) (eCast cast (TV 2 64) (eShuf [0; 2] v2 v2))) AImp.
(** 567-579 LiftSsePmaddwd. *)
Definition LiftSsePmaddwd (i : sinst) : list astm :=
  let mul := eMul (eCast CSExt (TV 8 32) v1) (eCast CSExt (TV 8 32) v2) in
  qload 1 (i_op0 i) VI16 ANone ++ qload 2 (i_op1 i) VI16 ANone ++
  qstore (i_op0 i) (TV 4 32) (eAdd (eShuf [0; 2; 4; 6] mul mul) (eShuf [1; 3; 5; 7] mul mul)) AImp.
(** 581-602 SaturateTrunc of a vector of [n] elements of [w] bits. *)
Definition SaturateTrunc (n w : Z) (v : dexp) (sign : bool) : dexp :=
  let min := if sign then - 2 ^ (w / 2 - 1) else 0 in
  let max := if sign then 2 ^ (w / 2 - 1) - 1 else 2 ^ (w / 2) - 1 in
  let v := eSel (eCmp SLT v (eSplat n w min)) (eSplat n w min) v in
  let v := eSel (eCmp SGT v (eSplat n w max)) (eSplat n w max) v in
  eCast CTrunc (TV n (w / 2)) v.
(** 604-621 LiftSsePaddsubSaturate. *)
Definition LiftSsePaddsubSaturate (i : sinst) (op : binop) (sign horz : bool) (f : facet) : list astm :=
  let n := fcnt f in
  let w := fw f in
  let s1 := if horz then eShuf (horz1 n) v1 v2 else v1 in
  let s2 := if horz then eShuf (horz2 n) v1 v2 else v2 in
  let cast := if sign then CSExt else CZExt in
  qload 1 (i_op0 i) f AMax ++ qload 2 (i_op1 i) f AMax ++
  qstore (i_op0 i) (TV n w)
    (SaturateTrunc n (2 * w) (eBin op (eCast cast (TV n (2 * w)) s1) (eCast cast (TV n (2 * w)) s2)) sign) AImp.
(** 623-644 LiftSsePsadbw; CreateAddReduce is written out as a sum of extracts. *)
Definition eReduce8 (a : dexp) : dexp :=
  fold_left (fun acc k => eAdd acc (E1 (OExtract k) a)) [1; 2; 3; 4; 5; 6; 7] (E1 (OExtract 0) a).
Definition LiftSsePsadbw (i : sinst) : list astm :=
  let zero := eNull (TV 16 8) in
  let diff := eSub v1 v2 in
  let diff := eSel (eCmp UGT v2 v1) (eVNeg 16 8 diff) diff in
  let low := eReduce8 (eCast CZExt (TV 8 16) (eShuf [0; 1; 2; 3; 4; 5; 6; 7] diff zero)) in
  let high := eReduce8 (eCast CZExt (TV 8 16) (eShuf [8; 9; 10; 11; 12; 13; 14; 15] diff zero)) in
  qload 1 (i_op0 i) VI8 ANone ++ qload 2 (i_op1 i) VI8 ANone ++
  qstore (i_op0 i) (TV 8 16) (E2 (OInsert 4) (E2 (OInsert 0) (eNull (TV 8 16)) low) high) AImp.
(** 646-666 LiftSsePmaddubsw: [a] is operand 1, [b] operand 0. *)
Definition LiftSsePmaddubsw (i : sinst) : list astm :=
  let undef := EUndef (TV 16 8) in
  let ev := [0; 2; 4; 6; 8; 10; 12; 14] in
  let od := [1; 3; 5; 7; 9; 11; 13; 15] in
  let a := v1 in let b := v2 in
  let mul m := eMul (eCast CSExt (TV 8 32) (eShuf m a undef)) (eCast CZExt (TV 8 32) (eShuf m b undef)) in
  qload 1 (i_op1 i) VI8 ANone ++ qload 2 (i_op0 i) VI8 ANone ++
  qstore (i_op0 i) (TV 8 16) (SaturateTrunc 8 32 (eAdd (mul ev) (mul od)) true) AImp.
(** 668-683 LiftSsePack. *)
Definition LiftSsePack (i : sinst) (f : facet) (sign : bool) : list astm :=
  let f0 := facet_Resolve f (q_bits (i_op0 i)) in
  let n := fcnt f0 in
  let w := fw f0 in
  let mask := zseq n ++ map (fun k => k + n) (zseq n) in
  qload 1 (i_op0 i) f AMax ++ qload 2 (i_op1 i) f AMax ++
  qstore (i_op0 i) (TV (2 * n) (w / 2)) (eShuf mask (SaturateTrunc n w v1 sign) (SaturateTrunc n w v2 sign)) AImp.
(** 685-691 LiftSsePcmp. *)
Definition LiftSsePcmp (i : sinst) (p : icmp) (f : facet) : list astm :=
  let t := facet_type (facet_Resolve f (q_bits (i_op0 i))) in
  qload 1 (i_op0 i) f AMax ++ qload 2 (i_op1 i) f AMax ++
  qstore (i_op0 i) t (eCast CSExt t (eCmp p v1 v2)) AImp.
(** 693-699 LiftSsePminmax. *)
Definition LiftSsePminmax (i : sinst) (p : icmp) (f : facet) : list astm :=
  let t := facet_type (facet_Resolve f (q_bits (i_op0 i))) in
  qload 1 (i_op0 i) f AMax ++ qload 2 (i_op1 i) f AMax ++
  qstore (i_op0 i) t (eSel (eCmp p v1 v2) v1 v2) AImp.
(** 701-707 LiftSsePabs. *)
Definition LiftSsePabs (i : sinst) (f : facet) : list astm :=
  let t := facet_type (facet_Resolve f (q_bits (i_op1 i))) in
  qload 1 (i_op1 i) f AMax ++
  qstore (i_op0 i) t (eSel (eCmp SGE v1 (eNull t)) v1 (eSub (eNull t) v1)) AImp.
(** 709-718 LiftSsePsign. *)
Definition LiftSsePsign (i : sinst) (f : facet) : list astm :=
  let f0 := facet_Resolve f (q_bits (i_op0 i)) in
  let t := facet_type f0 in
  qload 1 (i_op0 i) f AMax ++ qload 2 (i_op1 i) f AMax ++
  qstore (i_op0 i) t
    (eSel (eCmp EQ v2 (eNull t)) (eNull t) (eSel (eCmp SLT v2 (eNull t)) (eVNeg (fcnt f0) (fw f0) v1) v1)) AImp.
(** 720-727 LiftSseMovmsk. *)
Definition LiftSseMovmsk (i : sinst) (f : facet) : list astm :=
  let f1 := facet_Resolve f (q_bits (i_op1 i)) in
  qload 1 (i_op1 i) f AMax ++
  gstore (i_op0 i) (TInt 64)
    (eZExt 64 (eBitCast (TInt (fcnt f1)) (eCmp SLT v1 (eNull (facet_type f1))))).
(** 729-734 LiftSsePmovx. *)
Definition LiftSsePmovx (i : sinst) (cast : castop) (from to : facet) : list astm :=
  qload 1 (i_op1 i) from ANone ++ qstore (i_op0 i) (facet_type to) (eCast cast (facet_type to) v1) AImp.

(** lifter.cc:211-431. *)
Definition lift_sse (i : sinst) : list astm :=
  match i_mn i with
  | S_FXSAVE => LiftFxsave i
  | S_FXRSTOR => LiftFxrstor i
  | S_FSTCW => LiftFstcw i
  | S_FLDCW => []
  | S_FSTSW => LiftFstsw i
  | S_STMXCSR => LiftStmxcsr i
  | S_LDMXCSR => []
  | S_MOVD => LiftSseMovq i I32
  | S_MOVQ => LiftSseMovq i I64
  | S_MOVSS => LiftSseMovScalar i I32
  | S_MOVSD => LiftSseMovScalar i I64
  | S_MOVUPS => LiftSseMovdq i V4F32 ANone
  | S_MOVUPD => LiftSseMovdq i V2F64 ANone
  | S_MOVAPS => LiftSseMovdq i V4F32 AMax
  | S_MOVAPD => LiftSseMovdq i V2F64 AMax
  | S_MOVDQU => LiftSseMovdq i V2I64 ANone
  | S_MOVDQA => LiftSseMovdq i V2I64 AMax
  | S_LDDQU => LiftSseMovdq i V2I64 ANone
  | S_MOVNTPS => LiftSseMovntStore i VF32
  | S_MOVNTPD => LiftSseMovntStore i VF64
  | S_MOVNTDQ => LiftSseMovntStore i VI64
  | S_MOVNTDQA => LiftSseMovdq i V2I64 AMax
  | S_MOVLPS | S_MOVHLPS | S_MOVLPD => LiftSseMovlp i
  | S_MOVHPS | S_MOVLHPS => LiftSseMovhps i
  | S_MOVHPD => LiftSseMovhpd i
  | S_PUNPCKLBW => LiftSseUnpck i V16I8
  | S_PUNPCKLWD => LiftSseUnpck i V8I16
  | S_PUNPCKLDQ => LiftSseUnpck i V4I32
  | S_PUNPCKLQDQ => LiftSseUnpck i V2I64
  | S_PUNPCKHBW => LiftSseUnpck i V16I8
  | S_PUNPCKHWD => LiftSseUnpck i V8I16
  | S_PUNPCKHDQ => LiftSseUnpck i V4I32
  | S_PUNPCKHQDQ => LiftSseUnpck i V2I64
  | S_UNPCKLPS => LiftSseUnpck i V4F32
  | S_UNPCKLPD => LiftSseUnpck i V2F64
  | S_UNPCKHPS => LiftSseUnpck i V4F32
  | S_UNPCKHPD => LiftSseUnpck i V2F64
  | S_SHUFPD => LiftSseShufpd i
  | S_SHUFPS => LiftSseShufps i
  | S_PSHUFD => LiftSsePshufd i
  | S_PSHUFLW => LiftSsePshufw i 0
  | S_PSHUFHW => LiftSsePshufw i 4
  | S_INSERTPS => LiftSseInsertps i
  | S_EXTRACTPS => LiftSsePextr i VF32 3
  | S_MOVSLDUP => LiftSseMovdup i VF32 0
  | S_MOVSHDUP => LiftSseMovdup i VF32 1
  | S_MOVDDUP => LiftSseMovdup i VF64 0
  | S_ADDSS => LiftSseFBinOp i FAdd false F32
  | S_ADDSD => LiftSseFBinOp i FAdd false F64
  | S_ADDPS => LiftSseFBinOp i FAdd false VF32
  | S_ADDPD => LiftSseFBinOp i FAdd false VF64
  | S_ADDSUBPS => LiftSseAddSub i VF32
  | S_ADDSUBPD => LiftSseAddSub i VF64
  | S_SUBSS => LiftSseFBinOp i FSub false F32
  | S_SUBSD => LiftSseFBinOp i FSub false F64
  | S_SUBPS => LiftSseFBinOp i FSub false VF32
  | S_SUBPD => LiftSseFBinOp i FSub false VF64
  | S_MULSS => LiftSseFBinOp i FMul false F32
  | S_MULSD => LiftSseFBinOp i FMul false F64
  | S_MULPS => LiftSseFBinOp i FMul false VF32
  | S_MULPD => LiftSseFBinOp i FMul false VF64
  | S_DIVSS => LiftSseFBinOp i FDiv false F32
  | S_DIVSD => LiftSseFBinOp i FDiv false F64
  | S_DIVPS => LiftSseFBinOp i FDiv false VF32
  | S_DIVPD => LiftSseFBinOp i FDiv false VF64
  | S_HADDPS => LiftSseFBinOp i FAdd true VF32
  | S_HADDPD => LiftSseFBinOp i FAdd true VF64
  | S_HSUBPS => LiftSseFBinOp i FSub true VF32
  | S_HSUBPD => LiftSseFBinOp i FSub true VF64
  | S_MINSS => LiftSseMinmax i FOLT F32
  | S_MINSD => LiftSseMinmax i FOLT F64
  | S_MINPS => LiftSseMinmax i FOLT VF32
  | S_MINPD => LiftSseMinmax i FOLT VF64
  | S_MAXSS => LiftSseMinmax i FOGT F32
  | S_MAXSD => LiftSseMinmax i FOGT F64
  | S_MAXPS => LiftSseMinmax i FOGT VF32
  | S_MAXPD => LiftSseMinmax i FOGT VF64
  | S_ORPS => LiftSseBinOp i Or false VI32
  | S_ORPD => LiftSseBinOp i Or false VI64
  | S_ANDPS => LiftSseBinOp i And false VI32
  | S_ANDPD => LiftSseBinOp i And false VI64
  | S_XORPS => LiftSseBinOp i Xor false VI32
  | S_XORPD => LiftSseBinOp i Xor false VI64
  | S_ANDNPS => LiftSseAndn i VI32
  | S_ANDNPD => LiftSseAndn i VI64
  | S_COMISS => LiftSseComis i F32
  | S_COMISD => LiftSseComis i F64
  | S_UCOMISS => LiftSseComis i F32
  | S_UCOMISD => LiftSseComis i F64
  | S_CMPSS => LiftSseCmp i F32
  | S_CMPSD => LiftSseCmp i F64
  | S_CMPPS => LiftSseCmp i VF32
  | S_CMPPD => LiftSseCmp i VF64
  | S_SQRTSS => LiftSseSqrt i F32
  | S_SQRTSD => LiftSseSqrt i F64
  | S_SQRTPS => LiftSseSqrt i VF32
  | S_SQRTPD => LiftSseSqrt i VF64
  | S_CVTDQ2PD => LiftSseCvt i V2I32 V2F64
  | S_CVTDQ2PS => LiftSseCvt i V4I32 V4F32
  | S_CVTTPD2DQ => LiftSseCvt i V2F64 V2I32
  | S_CVTTPS2DQ => LiftSseCvt i V4F32 V4I32
  | S_CVTPD2PS => LiftSseCvt i V2F64 V2F32
  | S_CVTPS2PD => LiftSseCvt i V2F32 V2F64
  | S_CVTSD2SS => LiftSseCvt i F64 F32
  | S_CVTSS2SD => LiftSseCvt i F32 F64
  | S_CVTTSD2SI => LiftSseCvt i F64 FI
  | S_CVTTSS2SI => LiftSseCvt i F32 FI
  | S_CVTSI2SD => LiftSseCvt i FI F64
  | S_CVTSI2SS => LiftSseCvt i FI F32
  | S_PXOR => LiftSseBinOp i Xor false VI64
  | S_POR => LiftSseBinOp i Or false VI64
  | S_PAND => LiftSseBinOp i And false VI64
  | S_PANDN => LiftSseAndn i VI64
  | S_PADDB => LiftSseBinOp i Add false V16I8
  | S_PADDW => LiftSseBinOp i Add false V8I16
  | S_PADDD => LiftSseBinOp i Add false V4I32
  | S_PADDQ => LiftSseBinOp i Add false V2I64
  | S_PSUBB => LiftSseBinOp i Sub false V16I8
  | S_PSUBW => LiftSseBinOp i Sub false V8I16
  | S_PSUBD => LiftSseBinOp i Sub false V4I32
  | S_PSUBQ => LiftSseBinOp i Sub false V2I64
  | S_PHADDW => LiftSseBinOp i Add true VI16
  | S_PHADDD => LiftSseBinOp i Add true VI32
  | S_PHSUBW => LiftSseBinOp i Sub true VI16
  | S_PHSUBD => LiftSseBinOp i Sub true VI32
  | S_PADDSB => LiftSsePaddsubSaturate i Add true false V16I8
  | S_PADDSW => LiftSsePaddsubSaturate i Add true false V8I16
  | S_PADDUSB => LiftSsePaddsubSaturate i Add false false V16I8
  | S_PADDUSW => LiftSsePaddsubSaturate i Add false false V8I16
  | S_PSUBSB => LiftSsePaddsubSaturate i Sub true false V16I8
  | S_PSUBSW => LiftSsePaddsubSaturate i Sub true false V8I16
  | S_PSUBUSB => LiftSsePaddsubSaturate i Sub false false V16I8
  | S_PSUBUSW => LiftSsePaddsubSaturate i Sub false false V8I16
  | S_PHADDSW => LiftSsePaddsubSaturate i Add true true V8I16
  | S_PHSUBSW => LiftSsePaddsubSaturate i Sub true true V8I16
  | S_PSADBW => LiftSsePsadbw i
  | S_PMADDUBSW => LiftSsePmaddubsw i
  | S_PMULLW => LiftSseBinOp i Mul false V8I16
  | S_PMULLD => LiftSseBinOp i Mul false V4I32
  | S_PSLLW => LiftSsePshiftElement i Shl VI16
  | S_PSLLD => LiftSsePshiftElement i Shl VI32
  | S_PSLLQ => LiftSsePshiftElement i Shl VI64
  | S_PSRLW => LiftSsePshiftElement i LShr VI16
  | S_PSRLD => LiftSsePshiftElement i LShr VI32
  | S_PSRLQ => LiftSsePshiftElement i LShr VI64
  | S_PSRAW => LiftSsePshiftElement i AShr VI16
  | S_PSRAD => LiftSsePshiftElement i AShr VI32
  | S_PSLLDQ => LiftSsePshiftBytes i
  | S_PSRLDQ => LiftSsePshiftBytes i
  | S_PALIGNR => LiftSsePalignr i
  | S_PACKSSWB => LiftSsePack i VI16 true
  | S_PACKSSDW => LiftSsePack i VI32 true
  | S_PACKUSWB => LiftSsePack i VI16 false
  | S_PACKUSDW => LiftSsePack i VI32 false
  | S_PINSRB => LiftSsePinsr i VI8 I8 15
  | S_PINSRW => LiftSsePinsr i VI16 I16 7
  | S_PINSRD => LiftSsePinsr i VI32 I32 3
  | S_PINSRQ => LiftSsePinsr i VI64 I64 1
  | S_PEXTRB => LiftSsePextr i VI8 15
  | S_PEXTRW => LiftSsePextr i VI16 7
  | S_PEXTRD => LiftSsePextr i VI32 3
  | S_PEXTRQ => LiftSsePextr i VI64 1
  | S_PAVGB => LiftSsePavg i VI8
  | S_PAVGW => LiftSsePavg i VI16
  | S_PMULHW => LiftSsePmulhw i CSExt
  | S_PMULHUW => LiftSsePmulhw i CZExt
  | S_PMULDQ => LiftSsePmuldq i CSExt
  | S_PMULUDQ => LiftSsePmuldq i CZExt
  | S_PMADDWD => LiftSsePmaddwd i
  | S_PCMPEQB => LiftSsePcmp i EQ VI8
  | S_PCMPEQW => LiftSsePcmp i EQ VI16
  | S_PCMPEQD => LiftSsePcmp i EQ VI32
  | S_PCMPEQQ => LiftSsePcmp i EQ VI64
  | S_PCMPGTB => LiftSsePcmp i SGT VI8
  | S_PCMPGTW => LiftSsePcmp i SGT VI16
  | S_PCMPGTD => LiftSsePcmp i SGT VI32
  | S_PCMPGTQ => LiftSsePcmp i SGT VI64
  | S_PMINUB => LiftSsePminmax i ULT VI8
  | S_PMINUW => LiftSsePminmax i ULT VI16
  | S_PMINUD => LiftSsePminmax i ULT VI32
  | S_PMINSB => LiftSsePminmax i SLT VI8
  | S_PMINSW => LiftSsePminmax i SLT VI16
  | S_PMINSD => LiftSsePminmax i SLT VI32
  | S_PMAXUB => LiftSsePminmax i UGT VI8
  | S_PMAXUW => LiftSsePminmax i UGT VI16
  | S_PMAXUD => LiftSsePminmax i UGT VI32
  | S_PMAXSB => LiftSsePminmax i SGT VI8
  | S_PMAXSW => LiftSsePminmax i SGT VI16
  | S_PMAXSD => LiftSsePminmax i SGT VI32
  | S_PABSB => LiftSsePabs i VI8
  | S_PABSW => LiftSsePabs i VI16
  | S_PABSD => LiftSsePabs i VI32
  | S_PSIGNB => LiftSsePsign i VI8
  | S_PSIGNW => LiftSsePsign i VI16
  | S_PSIGND => LiftSsePsign i VI32
  | S_PMOVMSKB => LiftSseMovmsk i VI8
  | S_MOVMSKPS => LiftSseMovmsk i VI32
  | S_MOVMSKPD => LiftSseMovmsk i VI64
  | S_PMOVSXBW => LiftSsePmovx i CSExt V8I8 V8I16
  | S_PMOVSXBD => LiftSsePmovx i CSExt V4I8 V4I32
  | S_PMOVSXBQ => LiftSsePmovx i CSExt V2I8 V2I64
  | S_PMOVSXWD => LiftSsePmovx i CSExt V4I16 V4I32
  | S_PMOVSXWQ => LiftSsePmovx i CSExt V2I16 V2I64
  | S_PMOVSXDQ => LiftSsePmovx i CSExt V2I32 V2I64
  | S_PMOVZXBW => LiftSsePmovx i CZExt V8I8 V8I16
  | S_PMOVZXBD => LiftSsePmovx i CZExt V4I8 V4I32
  | S_PMOVZXBQ => LiftSsePmovx i CZExt V2I8 V2I64
  | S_PMOVZXWD => LiftSsePmovx i CZExt V4I16 V4I32
  | S_PMOVZXWQ => LiftSsePmovx i CZExt V2I16 V2I64
  | S_PMOVZXDQ => LiftSsePmovx i CZExt V2I32 V2I64
  end.

(** lifter.cc:55-69: the PC is advanced before the instruction is lifted. *)
Definition lift_sinst (i : sinst) : list astm :=
  (1, SPcConst (trunc 64 (i_start i + i_len i))) :: lift_sse i.
End Lift.

(** ** Execution with promised alignments: a load or store whose address is not
    a multiple of the alignment it was emitted with is undefined behaviour
    (LLVM Language Reference, "load" and "store"). *)
Section ARun.
Context `{FpuOps}.
Variable c : cenv.
Definition aok (s : st) (al : Z) (i : stm) : res bool :=
  match i with
  | SLoad _ _ e | SStore _ e =>
    do p <- ev c s e;
    match p with V _ z => Ok (z mod al =? 0) | Poison _ => Ok true end
  | _ => Ok true
  end.
Fixpoint arun (s : st) (l : list astm) : res st :=
  match l with
  | [] => Ok s
  | (al, i) :: l' => do b <- aok s al i; if b then (do s' <- run1 c s i; arun s' l') else UB
  end.
End ARun.
