(** Model of the AArch64 floating-point lifter: simd.cc:396-604, 876-880, 1219-1276,
    1314-1328 (vector and scalar SIMD forms, [fop]) and main.cc:733-862, 897-901 (scalar
    forms, [sop]). *)

From Coq Require Import ZArith Lia List Bool.
From Verif Require Import Bits IR Facet Dsl A64Base A64Simd.
From Verif Require X86Sse.
Import X86Sse(TV, eNull, eSplat, eShuf, zseq, eFCmp).
Import ListNotations.
Open Scope Z_scope.

(** llvm::CmpInst predicate numbers. *)
Definition P_OEQ := 1. Definition P_OGT := 2. Definition P_OGE := 3. Definition P_OLT := 4. Definition P_OLE := 5. Definition P_UNO := 8.

Definition eF1 (f : fpname) (t : ty) (a : dexp) : dexp := E1 (OFp1 f t) a.
Definition eF2 (f : fpname) (t : ty) (a b : dexp) : dexp := E2 (OFp2 f t) a b.
(** main.cc:1049-1065 Round. llvm.rint, llvm.nearbyint and llvm.roundeven agree in the
    default environment, which lifted code runs in; all are [FRint] here. [None]: the
    assertion for round-to-odd. *)
Definition round_op (m : frm) : option fpname :=
  match m with
  | FPR_CURRENT | FPR_TIE_EVEN => Some FRint
  | FPR_TIE_AWAY => Some FRound
  | FPR_NEG_INF => Some FFloor
  | FPR_ZERO => Some FTruncI
  | FPR_POS_INF => Some FCeil
  | FPR_ODD => None
  end.
(** llvm::ConstantFP::get(TypeOf(prec), pow(2.0, fbits)): its pattern. Half precision is
    an integer type in the code (TypeOf, main.cc:1077-1088), where ConstantFP::get is
    undefined; 0 here. *)
Definition pow2_fp (z : fsz) (k : Z) : Z :=
  match z with FSZ_S => (127 + k) * 2 ^ 23 | FSZ_D => (1023 + k) * 2 ^ 52 | _ => 0 end.

Section Fp.
Variable i : vinst.
Let v := v_va i.
Let n := NumElem v.
Let z := fsz_of v.
Let rn (f : facet) : nat * Z * facet := (0%nat, v_rn i, f).
Let rm (f : facet) : nat * Z * facet := (1%nat, v_rm i, f).
Let rd (f : facet) : nat * Z * facet := (2%nat, v_rd i, f).
Let f := FacetOf v true.
Let t := TypeOf v true.
(** scalar ? GetScalar(r, fad_size_from_vec_arrangement(va)) : GetVec(r, va, true). *)
Let fs := if v_scalar i then sc_facet z true else f.
Let ts := facet_type fs.
(** The corresponding integer operand and result types. *)
Let fi := if v_scalar i then sc_facet z false else FacetOf v false.
(** ConstantFP, splatted for vectors. *)
Let cst (k : Z) : dexp := let c := EConst (facet_type (sc_facet z true)) k in if v_scalar i then c else E1 (OSplat n) c.
(** GetElem(a64.rm, va, a64.imm, true) (1344-1354). *)
Let re := (4%nat, v_rm i, FacetOf (FullVa v) true).
Let elem := E1 (OExtract (v_imm i)) (vX 4).

(** 396-428 FCVT_VEC. The scalar form's integer type is i64 for FSZ_D and i32 otherwise. *)
Definition LiftFcvt : vres :=
  match round_op (v_mode i) with
  | None => None
  | Some r =>
    let it := if v_scalar i then TInt (match z with FSZ_D => 64 | _ => 32 end) else facet_type fi in
    let x := if 0 <? v_fbits i then eF2 FMul ts (vX 0) (cst (pow2_fp z (v_fbits i))) else vX 0 in
    ret [rn fs] (v_rd i) (eF1 (if v_sgn i then FToSI else FToUI) it (eF1 r ts x))
  end.
(** 429-459 CVTF_VEC. *)
Definition LiftCvtf : vres :=
  let x := eF1 (if v_sgn i then FSIToFP else FUIToFP) ts (vX 0) in
  ret [rn fi] (v_rd i) (if 0 <? v_fbits i then eF2 FDiv ts x (cst (pow2_fp z (v_fbits i))) else x).
(** 460-471 FRINT_VEC, FRINTX_VEC. *)
Definition LiftFrint : vres :=
  if negb (v_fbits i =? 0) then vunhandled
  else match round_op (v_mode i) with None => None | Some r => ret [rn f] (v_rd i) (eF1 r t (vX 0)) end.
(** 1558-1583 LiftCmXX and LiftScalarCmXX with fp; the latter always compares doubles. *)
Definition LiftFcm (p : Z) (zero : bool) : vres :=
  let f := if v_scalar i then F64 else f in
  let t := facet_type f in
  let it := if v_scalar i then TInt 64 else TypeOf v false in
  ret (rn f :: if zero then [] else [rm f]) (v_rd i)
      (eCast CSExt it (eFCmp p t (vX 0) (if zero then eNull t else vX 1))).
(** 1542-1554 LiftThreeSame and 1585-1589 LiftIntrinsicFPVec. *)
Definition LiftFThree (op : fpname) : vres := ret [rn f; rm f] (v_rd i) (eF2 op t (vX 0) (vX 1)).
(** 1591-1616 LiftMulAcc, fp. *)
Definition LiftFMulAcc (op : fpname) : vres :=
  ret [rn f; rm f; rd f] (v_rd i) (eF2 op t (vX 2) (eF2 FMul t (vX 0) (vX 1))).
(** 1625-1659 LiftMulAccElem, fp; the scalar forms of FMUL_ELEM, FMLA_ELEM and FMLS_ELEM
    (553-603). [acc]: Vd, or the null accumulator. *)
Definition LiftFMulElem (op : fpname) (acc : bool) : vres :=
  if v_scalar i then
    let mul := eF2 FMul ts (vX 0) elem in
    ret ([rn fs; re] ++ if acc then [rd fs] else []) (v_rd i) (if acc then eF2 op ts (vX 2) mul else mul)
  else
    ret ([rn f; re] ++ if acc then [rd f] else []) (v_rd i)
        (eF2 op t (if acc then vX 2 else eNull t) (eF2 FMul t (vX 0) (E1 (OSplat n) elem))).
(** 1661-1680 TransformSIMDPairwise. *)
Definition LiftFPair (op : fpname) : vres :=
  ret [rn f; rm f] (v_rd i) (eF2 op t (eShuf (even n) (vX 0) (vX 1)) (eShuf (odd n) (vX 0) (vX 1))).
(** CreateFPMaxReduce, CreateFPMinReduce: llvm.vector.reduce.fmax/fmin, the left fold of
    maxnum/minnum over the elements (the order is unspecified). *)
Definition LiftFRed (op : fpname) : vres :=
  ret [rn f] (v_rd i) (eReduce (eF2 op (ElemTypeOf v true)) n (vX 0)).

Definition lift_fp (o : fop) : vres :=
  match o with
  | V_FCVT => LiftFcvt
  | V_CVTF => LiftCvtf
  | V_FRINT | V_FRINTX => LiftFrint
  (* 472-490 *)
  | V_FCVTN =>
    match v with
    | VA_2S | VA_4S => InsertInHalf v true [rn V2F64] (v_rd i) (eF1 FTrunc (TVec 2 TF32) (vX 0))
    | _ => vunhandled
    end
  | V_FCVTL =>
    match v with
    | VA_2S | VA_4S => ret [rn f] (v_rd i) (eF1 FExt (TVec 2 TF64) (Halve v true (vX 0)))
    | _ => vunhandled
    end
  (* 491-538 *)
  | V_FCMEQ => LiftFcm P_OEQ false
  | V_FCMEQ_Z => LiftFcm P_OEQ true
  | V_FCMGE => LiftFcm P_OGE false
  | V_FCMGE_Z => LiftFcm P_OGE true
  | V_FCMGT => LiftFcm P_OGT false
  | V_FCMGT_Z => LiftFcm P_OGT true
  | V_FCMLE_Z => LiftFcm P_OLE true
  | V_FCMLT_Z => LiftFcm P_OLT true
  (* 539-562 *)
  | V_FABS => ret [rn f] (v_rd i) (eF1 FFabs t (vX 0))
  | V_FABD => ret [rn fs; rm fs] (v_rd i) (eF1 FFabs ts (eF2 FSub ts (vX 0) (vX 1)))
  | V_FNEG => ret [rn f] (v_rd i) (eF1 FNeg t (vX 0))
  | V_FSQRT => ret [rn f] (v_rd i) (eF1 FSqrt t (vX 0))
  (* 563-604 *)
  | V_FMUL_ELEM => LiftFMulElem FAdd false
  | V_FMUL => LiftFThree FMul
  | V_FDIV => LiftFThree FDiv
  | V_FADD => LiftFThree FAdd
  | V_FSUB => LiftFThree FSub
  | V_FMAX | V_FMAXNM => LiftFThree FMaxnum
  | V_FMIN | V_FMINNM => LiftFThree FMinnum
  | V_FMLA_ELEM => LiftFMulElem FAdd true
  | V_FMLA => LiftFMulAcc FAdd
  | V_FMLS_ELEM => LiftFMulElem FSub true
  | V_FMLS => LiftFMulAcc FSub
  (* 876-880; the immediate is the constant's pattern in the element format, the 8-bit
     encodings being exact in every format *)
  | V_FMOV => ret [] (v_rd i) (E1 (OSplat n) (EConst (facet_type (sc_facet z true)) (v_imm i)))
  (* 1219-1276 *)
  | V_FADDP => ret [rn f] (v_rd i) (eF2 FAdd (ElemTypeOf v true) (E1 (OExtract 0) (vX 0)) (E1 (OExtract 1) (vX 0)))
  | V_FADDP_VEC => LiftFPair FAdd
  | V_FMAXP_VEC | V_FMAXNMP_VEC => LiftFPair FMaxnum
  | V_FMINP_VEC | V_FMINNMP_VEC => LiftFPair FMinnum
  (* 1314-1328 *)
  | V_FMAXV | V_FMAXNMV | V_FMAXP | V_FMAXNMP => LiftFRed FMaxnum
  | V_FMINV | V_FMINNMV | V_FMINP | V_FMINNMP => LiftFRed FMinnum
  end.
End Fp.

(** main.cc:1401-1410 FlagCalcFP; the operands are temporaries. *)
Definition FlagCalcFP (t : ty) (lhs rhs : dexp) : list stm :=
  [SLet 5 (eFCmp P_UNO t lhs rhs); SLet 6 (eFCmp P_OEQ t lhs rhs); SLet 7 (eFCmp P_OLT t lhs rhs);
   SSet SF (vX 7); SSet ZF (vX 6); SSet CF (eNot 1 (vX 7)); SSet OF (vX 5)].

Section Scalar.
Variable i : vinst.
Let z := v_fsz i.
Let f := sc_facet z true.
Let t := facet_type f.
Let rn := (0%nat, v_rn i, f).
Let rm := (1%nat, v_rm i, f).
Let ra := (2%nat, v_ra i, f).
Let w := bits (v_w32 i).
Let scale : dexp := EConst t (pow2_fp z (v_fbits i)).

(** main.cc:1417-1424 LiftFMA. *)
Definition LiftFMA (neg_mult sub : bool) : vres :=
  let mul := eF2 FMul t (vX 0) (vX 1) in
  ret [rn; rm; ra] (v_rd i) (eF2 (if sub then FSub else FAdd) t (if neg_mult then eF1 FNeg t mul else mul) (vX 2)).
(** irb.CreateFPCast of an [s] value to [d]: no instruction if the types are equal. *)
Definition FPCast (s d : fsz) (a : dexp) : dexp :=
  match s, d with
  | FSZ_D, FSZ_S => eF1 FTrunc TF32 a
  | FSZ_S, FSZ_D => eF1 FExt TF64 a
  | _, _ => a
  end.
Definition lift_sfp (o : sop) : vres :=
  match o with
  (* 733-747 *)
  | S_FCVT_GPR =>
    match round_op (v_mode i) with
    | None => None
    | Some r =>
      let x := if 0 <? v_fbits i then eF2 FMul t (vX 0) scale else vX 0 in
      Some (Some (map rdv [rn] ++ SetGp (v_xd i) (eF1 (if v_sgn i then FToSI else FToUI) (TInt w) (eF1 r t x))))
    end
  (* 748-761 *)
  | S_CVTF =>
    let x := eF1 (if v_sgn i then FSIToFP else FUIToFP) t (vX 3) in
    Some (Some (SLet 3 (GetGp (v_xn i) (v_w32 i)) :: emit [] (v_rd i) (if 0 <? v_fbits i then eF2 FDiv t x scale else x)))
  (* 763-773 *)
  | S_FRINT | S_FRINTX =>
    match z with
    | FSZ_H => vunhandled
    | _ => if negb (v_fbits i =? 0) then vunhandled
           else match round_op (v_mode i) with None => None | Some r => ret [rn] (v_rd i) (eF1 r t (vX 0)) end
    end
  (* 775-790 *)
  | S_FCVT_S => match z with FSZ_H => vunhandled | _ => ret [rn] (v_rd i) (FPCast z FSZ_S (vX 0)) end
  | S_FCVT_D => match z with FSZ_H => vunhandled | _ => ret [rn] (v_rd i) (FPCast z FSZ_D (vX 0)) end
  (* 791-833 *)
  | S_FABS => ret [rn] (v_rd i) (eF1 FFabs t (vX 0))
  | S_FNEG => ret [rn] (v_rd i) (eF1 FNeg t (vX 0))
  | S_FSQRT => ret [rn] (v_rd i) (eF1 FSqrt t (vX 0))
  | S_FMUL => ret [rn; rm] (v_rd i) (eF2 FMul t (vX 0) (vX 1))
  | S_FDIV => ret [rn; rm] (v_rd i) (eF2 FDiv t (vX 0) (vX 1))
  | S_FADD => ret [rn; rm] (v_rd i) (eF2 FAdd t (vX 0) (vX 1))
  | S_FSUB => ret [rn; rm] (v_rd i) (eF2 FSub t (vX 0) (vX 1))
  | S_FMAX | S_FMAXNM => ret [rn; rm] (v_rd i) (eF2 FMaxnum t (vX 0) (vX 1))
  | S_FMIN | S_FMINNM => ret [rn; rm] (v_rd i) (eF2 FMinnum t (vX 0) (vX 1))
  | S_FNMUL => ret [rn; rm] (v_rd i) (eF1 FNeg t (eF2 FMul t (vX 0) (vX 1)))
  (* 834-845 *)
  | S_FMADD => LiftFMA false false
  | S_FMSUB => LiftFMA true false
  | S_FNMADD => LiftFMA true true
  | S_FNMSUB => LiftFMA false true
  (* 846-861 *)
  | S_FCMP => Some (Some (map rdv [rn; rm] ++ FlagCalcFP t (vX 0) (vX 1)))
  | S_FCMP_Z => Some (Some (map rdv [rn] ++ FlagCalcFP t (vX 0) (EConst t 0)))
  (* 897-901; the immediate is the pattern *)
  | S_FMOV_IMM => ret [] (v_rd i) (EConst t (v_imm i))
  end.
End Scalar.
