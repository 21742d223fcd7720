(** Model of the AArch64 SIMD lifter, /repo/src/a64/simd.cc, integer and permutation
    part. Structure loads/stores and floating-point operations are in A64SimdMem.v and
    A64SimdFp.v. *)

From Coq Require Import ZArith Lia List Bool.
From Verif Require Import Bits IR Facet Dsl A64Base.
From Verif Require Import X86Sse.
Import X86Sse(TV, eNull, eSplat, eShuf, zseq).
Import ListNotations.
Open Scope Z_scope.

(** farmdec::VectorArrangement. *)
Inductive va := VA_8B | VA_16B | VA_4H | VA_8H | VA_2S | VA_4S | VA_1D | VA_2D.

(** simd.cc:1423-1435 NumElem. *)
Definition NumElem (v : va) : Z :=
  match v with VA_8B => 8 | VA_16B => 16 | VA_4H => 4 | VA_8H => 8 | VA_2S => 2 | VA_4S => 4 | VA_1D => 1 | VA_2D => 2 end.
(** simd.cc:1449-1462 DoubleWidth; None is the assert(false). *)
Definition DoubleWidth (v : va) : option va :=
  match v with
  | VA_8B | VA_16B => Some VA_8H
  | VA_4H | VA_8H => Some VA_4S
  | VA_2S | VA_4S => Some VA_2D
  | _ => None
  end.
(** simd.cc:1464-1475 FacetOf. *)
Definition FacetOf (v : va) (fp : bool) : facet :=
  match v with
  | VA_8B => V8I8 | VA_16B => V16I8 | VA_4H => V4I16 | VA_8H => V8I16
  | VA_2S => if fp then V2F32 else V2I32
  | VA_4S => if fp then V4F32 else V4I32
  | VA_1D => if fp then V1F64 else V1I64
  | VA_2D => if fp then V2F64 else V2I64
  end.
(** simd.cc:1477-1483 TypeOf, ElemTypeOf and its getPrimitiveSizeInBits. *)
Definition TypeOf (v : va) (fp : bool) : ty := facet_type (FacetOf v fp).
Definition ElemTypeOf (v : va) (fp : bool) : ty := match TypeOf v fp with TVec _ t => t | t => t end.
Definition ElemBits (v : va) : Z := tsize (ElemTypeOf v false).
(** fad_size_from_vec_arrangement (farmdec, not in the checkout): by element size. *)
Definition fsz_of (v : va) : fsz :=
  match v with VA_8B | VA_16B => FSZ_B | VA_4H | VA_8H => FSZ_H | VA_2S | VA_4S => FSZ_S | VA_1D | VA_2D => FSZ_D end.
(** simd.cc:1346-1352, the arrangement GetElem reads. *)
Definition FullVa (v : va) : va :=
  match v with VA_8B => VA_16B | VA_4H => VA_8H | VA_2S => VA_4S | VA_1D => VA_2D | v => v end.
(** simd.cc:1393, 1513, 1638. *)
Definition upper_half (v : va) : bool := match v with VA_4S | VA_8H | VA_16B => true | _ => false end.

(** farmdec::Op values with an integer case in simd.cc:605-1331; MOV_VEC is V_ORR. *)
Inductive iop :=
| V_AND | V_BIC_IMM | V_BIC | V_BIF | V_BIT | V_BSL | V_CLS | V_CLZ | V_CNT | V_EOR | V_NOT | V_ORN | V_ORR_IMM | V_ORR
| V_RBIT | V_REV16 | V_REV32 | V_REV64 | V_SHL_IMM | V_SHL_REG | V_SHLL | V_SHR | V_SHRN | V_SRA
| V_DUP_ELEM | V_DUP_GPR | V_EXT | V_INS_ELEM | V_INS_GPR | V_MOVI | V_SMOV | V_UMOV | V_TBL | V_TBX
| V_UZP1 | V_UZP2 | V_XTN | V_ZIP1 | V_ZIP2
| V_CMEQ | V_CMEQ_Z | V_CMGE | V_CMGE_Z | V_CMGT | V_CMGT_Z | V_CMHI | V_CMHS | V_CMLE_Z | V_CMLT_Z | V_CMTST
| V_ABS | V_ABD | V_ABA | V_ABDL | V_ABAL | V_NEG
| V_MUL_ELEM | V_MUL | V_MULL_ELEM | V_MULL | V_ADD | V_ADDL | V_ADDW | V_HADD | V_SUB | V_SUBL | V_SUBW | V_HSUB
| V_MAX | V_MIN | V_MLA_ELEM | V_MLA | V_MLS_ELEM | V_MLS | V_MLAL_ELEM | V_MLAL | V_MLSL_ELEM | V_MLSL
| V_ADDP | V_ADDP_VEC | V_MAXP | V_MINP | V_ADDV | V_ADALP | V_ADDLP | V_MAXV | V_MINV.
(** Structure loads and stores, simd.cc:101-395. *)
Inductive mop :=
| V_LD1 | V_LD2 | V_LD3 | V_LD4 | V_ST1 | V_ST2 | V_ST3 | V_ST4
| V_LD1S | V_LD2S | V_LD3S | V_LD4S | V_ST1S | V_ST2S | V_ST3S | V_ST4S
| V_LD1R | V_LD2R | V_LD3R | V_LD4R.
(** Floating point, simd.cc:396-604, 876-880, 1219-1276, 1314-1328. *)
Inductive fop :=
| V_FCVT | V_CVTF | V_FRINT | V_FRINTX | V_FCVTN | V_FCVTL
| V_FCMEQ | V_FCMEQ_Z | V_FCMGE | V_FCMGE_Z | V_FCMGT | V_FCMGT_Z | V_FCMLE_Z | V_FCMLT_Z
| V_FABS | V_FABD | V_FNEG | V_FSQRT | V_FMUL_ELEM | V_FMUL | V_FDIV | V_FADD | V_FSUB
| V_FMAX | V_FMAXNM | V_FMIN | V_FMINNM | V_FMLA_ELEM | V_FMLA | V_FMLS_ELEM | V_FMLS | V_FMOV
| V_FADDP | V_FADDP_VEC | V_FMAXP_VEC | V_FMAXNMP_VEC | V_FMINP_VEC | V_FMINNMP_VEC
| V_FMAXV | V_FMAXNMV | V_FMAXP | V_FMAXNMP | V_FMINV | V_FMINNMV | V_FMINP | V_FMINNMP.
(** Scalar floating point, main.cc:729-830, 895-899. *)
Inductive sop :=
| S_FCVT_GPR | S_CVTF | S_FRINT | S_FRINTX | S_FCVT_S | S_FCVT_D | S_FABS | S_FNEG | S_FSQRT
| S_FMUL | S_FDIV | S_FADD | S_FSUB | S_FMAX | S_FMAXNM | S_FMIN | S_FMINNM
| S_FNMUL | S_FMADD | S_FMSUB | S_FNMADD | S_FNMSUB
| S_FCMP | S_FCMP_Z | S_FMOV_IMM.
Inductive vop := VI (o : iop) | VM (o : mop) | VF (o : fop) | VS (o : sop).

(** farmdec::FPRounding. *)
Inductive frm := FPR_CURRENT | FPR_TIE_EVEN | FPR_TIE_AWAY | FPR_NEG_INF | FPR_ZERO | FPR_POS_INF | FPR_ODD.
(** fad_get_addrmode as SIMDLoadStoreAddr (1707-1726) distinguishes it. *)
Inductive vam := VAM_SIMPLE | VAM_POST | VAM_OTHER.

(** farmdec::Inst (not in the checkout) as simd.cc uses it. Members that share storage
    in farmdec are separate fields here; vector and general registers are separate. *)
Record vinst := VInst {
  v_op : vop; v_va : va;
  v_round : bool; v_sgn : bool; v_scalar : bool; v_w32 : bool;   (* SIMD_ROUND, SIMD_SIGNED / fcvt.sgn, SIMD_SCALAR, W32 *)
  v_rd : Z; v_rn : Z; v_rm : Z; v_ra : Z;                        (* SIMD&FP registers; v_rd is also rt *)
  v_xd : xr; v_xn : xr; v_xm : xr;                               (* general registers *)
  v_imm : Z;
  v_src : Z; v_dst : Z;                                          (* ins_elem *)
  v_nreg : Z; v_index : Z; v_off : Z; v_am : vam;                (* simd_ldst, address mode *)
  v_fsz : fsz; v_mode : frm; v_fbits : Z;                        (* fad_get_prec, fcvt.mode / frint.mode, fcvt.fbits / frint.bits *)
}.

(** simd.cc:44-90, the shuffle masks. *)
Definition linear (n a t : Z) : list Z := map (fun i => a * i + t) (zseq n).
Definition even (n : Z) : list Z := linear n 2 0.
Definition odd (n : Z) : list Z := linear n 2 1.
Definition zipmask_lower (n : Z) : list Z := flat_map (fun i => [i; i + n]) (zseq (n / 2)).
Definition zipmask_upper (n : Z) : list Z := flat_map (fun i => [n / 2 + i; n / 2 + i + n]) (zseq (n / 2)).
Definition reverse (n m : Z) : list Z := flat_map (fun i => map (fun j => i * n + (n - j - 1)) (zseq n)) (zseq m).

(** irb.CreateNot, CreateNeg, CreateSExt/CreateZExt. *)
Definition eNotT (t : ty) (a : dexp) : dexp := eXor a (EConst t (-1)).
Definition eNegT (t : ty) (a : dexp) : dexp := eSub (eNull t) a.
Definition eExtT (sgn : bool) (t : ty) (a : dexp) : dexp := eCast (if sgn then CSExt else CZExt) t a.
(** getExtendedElementVectorType, getTruncatedElementVectorType. *)
Definition ExtTy (v : va) : ty := TV (NumElem v) (2 * ElemBits v).

(** simd.cc:1485-1495 MinMax, 1497-1501 Abs, 1504-1508 Narrow. *)
Definition MinMax (lhs rhs : dexp) (sgn min : bool) : dexp :=
  eSel (eCmp (if min then if sgn then SLT else ULT else if sgn then SGT else UGT) lhs rhs) lhs rhs.
Definition AbsT (t : ty) (v : dexp) : dexp := eSel (eCmp SLT v (eNull t)) (eNegT t v) v.
Definition Narrow (n w : Z) (v : dexp) : dexp := eCast CTrunc (TV n (w / 2)) v.
(** simd.cc:1511-1526 Halve, with the vector's element type [t]. *)
Definition half_mask (v : va) : list Z :=
  let n := NumElem v in
  if upper_half v then map (fun i => n / 2 + i) (zseq (n - n / 2)) else zseq n.
Definition Halve (v : va) (fp : bool) (a : dexp) : dexp := eShuf (half_mask v) a (eNull (TypeOf v fp)).

(** Reads of vector registers into temporaries: 0 is Vn, 1 is Vm, 2 is Vd, 4 is a full-width
    Vn or Vm, 5-8 table registers. Every GetReg precedes the SetReg. *)
Definition rdv (r : nat * Z * facet) : stm := let '(x, r, f) := r in SLet x (rG (VEC r) f).
Definition emit (rs : list (nat * Z * facet)) (rd : Z) (e : dexp) : list stm := map rdv rs ++ [SSet (VEC rd) e].
(** Result of LiftSIMD: [None] assert, [Some None] false, [Some (Some l)] true. *)
Definition vres := option (option (list stm)).
Definition ret (rs : list (nat * Z * facet)) (rd : Z) (e : dexp) : vres := Some (Some (emit rs rd e)).
Definition vunhandled : vres := Some None.

(** simd.cc:1392-1421 InsertInHalf of a vector of [NumElem v / 2] (or, for short
    arrangements, [NumElem v]) elements. *)
Definition InsertInHalf (v : va) (fp : bool) (rs : list (nat * Z * facet)) (rd : Z) (narrow : dexp) : vres :=
  if negb (upper_half v) then ret rs rd narrow
  else
    let n := NumElem v in
    let ext := eShuf (zseq n) narrow (eNull (TVec (n / 2) (ElemTypeOf v fp))) in
    let mask := map (fun i => if i <? n / 2 then i else i + n / 2) (zseq n) in
    ret (rs ++ [(2%nat, rd, FacetOf v fp)]) rd (eShuf mask (vX 2) ext).

(** simd.cc:1361-1378 InsertElem. The arrangement depends on the element's size only,
    so it is the full arrangement of [v]. *)
Definition InsertElem (v : va) (rs : list (nat * Z * facet)) (rd i : Z) (elem : dexp) : vres :=
  ret (rs ++ [(2%nat, rd, FacetOf (FullVa v) false)]) rd (E2 (OInsert i) (vX 2) elem).
(** simd.cc:1380-1382 Dup. *)
Definition Dup (v : va) (elem : dexp) : dexp := E1 (OSplat (NumElem v)) elem.

(** llvm.vector.reduce.*: modelled as the left fold over the extracted elements. *)
Definition eReduce (f : dexp -> dexp -> dexp) (n : Z) (a : dexp) : dexp :=
  fold_left (fun acc i => f acc (E1 (OExtract i) a)) (map (fun k => k + 1) (zseq (n - 1))) (E1 (OExtract 0) a).

(** extractelement with a run-time i8 index: selects among the constant indices; out of
    range the result is poison (LangRef), here undef. *)
Definition eExtractDyn (n : Z) (tbl idx : dexp) : dexp :=
  fold_left (fun acc k => eSel (eCmp EQ idx (cI 8 k)) (E1 (OExtract k) tbl) acc) (zseq n) (EUndef (TInt 8)).

(** A vector operation given lane by lane (see V_SHL_REG below): element k of the result
    is [f k], inserted into a null vector. *)
Definition eLanes (n w : Z) (f : Z -> dexp) : dexp :=
  fold_left (fun acc k => E2 (OInsert k) acc (f k)) (zseq n) (eNull (TV n w)).

Section Int.
Variable i : vinst.
Let v := v_va i.
Let n := NumElem v.
Let w := ElemBits v.
Let sgn := v_sgn i.
Let rn (f : facet) : nat * Z * facet := (0%nat, v_rn i, f).
Let rm (f : facet) : nat * Z * facet := (1%nat, v_rm i, f).
Let rd (f : facet) : nat * Z * facet := (2%nat, v_rd i, f).
Let f := FacetOf v false.
Let t := TypeOf v false.
(** scalar ? GetScalar(r, fad_size_from_vec_arrangement(va), false) : GetVec(r, va). *)
Let fs := if v_scalar i then sc_facet (fsz_of v) false else f.

(** simd.cc:1542-1554 LiftThreeSame. *)
Definition LiftThreeSame (op : binop) (scalar inv : bool) : vres :=
  let f := if scalar then sc_facet (fsz_of v) false else f in
  ret [rn f; rm f] (v_rd i) (eBin op (vX 0) (if inv then eNotT (facet_type f) (vX 1) else vX 1)).
(** simd.cc:1558-1569 LiftCmXX and 1571-1583 LiftScalarCmXX (always FSZ_D). *)
Definition LiftCm (p : icmp) (zero : bool) : vres :=
  let f := if v_scalar i then I64 else f in
  let rhs := if zero then eNull (facet_type f) else vX 1 in
  ret (rn f :: if zero then [] else [rm f]) (v_rd i) (eCast CSExt (facet_type f) (eCmp p (vX 0) rhs)).
(** simd.cc:1591-1616 LiftMulAcc; [acc] is None for a null accumulator. *)
Definition LiftMulAcc (sub acc long : bool) : vres :=
  let mk (dv : va) (a b : dexp) :=
    let d := FacetOf dv false in
    ret ([rn f; rm f] ++ if acc then [rd d] else []) (v_rd i)
        (eBin (if sub then Sub else Add) (if acc then vX 2 else eNull (facet_type d)) (eMul a b)) in
  if long then
    match DoubleWidth v with
    | Some dv => mk dv (eExtT sgn (TypeOf dv false) (Halve v false (vX 0))) (eExtT sgn (TypeOf dv false) (Halve v false (vX 1)))
    | None => None
    end
  else mk v (vX 0) (vX 1).
(** simd.cc:1625-1659 LiftMulAccElem. *)
Definition LiftMulAccElem (sub acc long : bool) : vres :=
  let elem := E1 (OExtract (v_imm i)) (vX 4) in
  let re := (4%nat, v_rm i, FacetOf (FullVa v) false) in
  let mk (dv : va) (a b : dexp) :=
    let d := FacetOf dv false in
    ret ([rn f; re] ++ if acc then [rd d] else []) (v_rd i)
        (eBin (if sub then Sub else Add) (if acc then vX 2 else eNull (facet_type d)) (eMul a b)) in
  if long then
    match DoubleWidth v with
    | Some dv => mk dv (eExtT sgn (TypeOf dv false) (Halve v false (vX 0)))
                       (eExtT sgn (TypeOf dv false) (E1 (OSplat (if upper_half v then n / 2 else n)) elem))
    | None => None
    end
  else mk v (vX 0) (E1 (OSplat n) elem).
(** ADDL, SUBL, ADDW, SUBW (1134-1150, 1173-1189). *)
Definition LiftLong (op : binop) (wide : bool) : vres :=
  match DoubleWidth v with
  | Some dv =>
    let t2 := TypeOf dv false in
    ret [rn (if wide then FacetOf dv false else f); rm f] (v_rd i)
        (eBin op (if wide then vX 0 else eExtT sgn t2 (Halve v false (vX 0))) (eExtT sgn t2 (Halve v false (vX 1))))
  | None => None
  end.
(** TransformSIMDPairwise 1673-1679. *)
Definition Pairwise (op : dexp -> dexp -> dexp) : vres :=
  ret [rn f; rm f] (v_rd i) (op (eShuf (even n) (vX 0) (vX 1)) (eShuf (odd n) (vX 0) (vX 1))).
(** REV16/32/64 (677-721): reverse runs of [r] elements. *)
Definition LiftRev (r : Z) : vres := ret [rn f] (v_rd i) (eShuf (reverse r (n / r)) (vX 0) (eNull t)).
(** TBL, TBX (900-973). The table is the concatenation of [imm] registers; for three, the
    last quarter is zero. *)
Definition cat16 (a b : dexp) : dexp := eShuf (zseq 32) a b.
Definition cat32 (a b : dexp) : dexp := eShuf (zseq 64) a b.
Definition LiftTbl (tbx : bool) : vres :=
  let zero := eNull (TypeOf VA_16B false) in
  let tr k : nat * Z * facet := ((5 + k)%nat, (v_rn i + Z.of_nat k) mod 32, V16I8) in
  let mk (rs : list nat) (len : Z) (tbl : dexp) :=
    let elem k :=
      let idx := E1 (OExtract k) (vX 1) in
      eSel (eCmp UGE idx (cI 8 (v_imm i * 16))) (if tbx then E1 (OExtract k) (vX 2) else cI 8 0) (eExtractDyn len tbl idx) in
    ret (map tr rs ++ [rm f; rd f]) (v_rd i) (fold_left (fun acc k => E2 (OInsert k) acc (elem k)) (zseq n) (vX 2)) in
  if v_imm i =? 1 then mk [0%nat] 16 (vX 5)
  else if v_imm i =? 2 then mk [0; 1]%nat 32 (cat16 (vX 5) (vX 6))
  else if v_imm i =? 3 then mk [0; 2; 1]%nat 64 (cat32 (cat16 (vX 5) (vX 6)) (cat16 (vX 7) zero))
  else if v_imm i =? 4 then mk [0; 2; 3; 1]%nat 64 (cat32 (cat16 (vX 5) (vX 6)) (cat16 (vX 7) (vX 8)))
  else None.

(** simd.cc:605-1331. *)
Definition lift_int (o : iop) : vres :=
  match o with
  (* 605-641 *)
  | V_AND => LiftThreeSame And false false
  | V_BIC_IMM => ret [rd f] (v_rd i) (eAnd (vX 2) (eNotT t (eSplat n w (v_imm i))))
  | V_BIC => LiftThreeSame And false true
  | V_BIF => ret [rd f; rn f; rm f] (v_rd i) (eXor (vX 2) (eAnd (eXor (vX 2) (vX 0)) (eNotT t (vX 1))))
  | V_BIT => ret [rd f; rn f; rm f] (v_rd i) (eXor (vX 2) (eAnd (eXor (vX 2) (vX 0)) (vX 1)))
  | V_BSL => ret [rd f; rn f; rm f] (v_rd i) (eXor (vX 1) (eAnd (eXor (vX 1) (vX 0)) (vX 2)))
  (* 642-676 *)
  | V_CLS => vunhandled
  | V_CLZ => ret [rn f] (v_rd i) (E1 (OIntr1 (Ctlz false)) (vX 0))
  | V_CNT => ret [rn f] (v_rd i) (E1 (OIntr1 Ctpop) (vX 0))
  | V_EOR => LiftThreeSame Xor false false
  | V_NOT => ret [rn f] (v_rd i) (eNotT t (vX 0))
  | V_ORN => LiftThreeSame Or false true
  | V_ORR_IMM => ret [rd f] (v_rd i) (eOr (vX 2) (eSplat n w (v_imm i)))
  | V_ORR => LiftThreeSame Or false false
  | V_RBIT => ret [rn f] (v_rd i) (E1 (OIntr1 Bitreverse) (vX 0))
  (* 677-721 *)
  | V_REV16 => LiftRev 2
  | V_REV32 => match v with VA_8B | VA_16B => LiftRev 4 | VA_4H | VA_8H => LiftRev 2 | _ => None end
  | V_REV64 => match v with VA_8B | VA_16B => LiftRev 8 | VA_4H | VA_8H => LiftRev 4 | VA_2S | VA_4S => LiftRev 2 | _ => None end
  (* 722-732 *)
  | V_SHL_IMM => ret [rn fs] (v_rd i) (eShl (vX 0) (if v_scalar i then cI w (v_imm i) else eSplat n w (v_imm i)))
  (* 733-761. In LLVM a poison lane of one arm does not affect other lanes, and the select
     drops the lanes of the arm it does not choose; IR.v tracks poison per vector, so the
     vector form is modelled lane by lane. *)
  | V_SHL_REG =>
    if v_round i then vunhandled
    else
      let shift w lhs rhs8 ext :=
        eSel (eCmp SGE rhs8 (cI 8 0)) (eShl lhs ext) (eBin (if sgn then AShr else LShr) lhs (eNegT (TInt w) ext)) in
      if v_scalar i then ret [rn I64; rm I8] (v_rd i) (shift 64 (vX 0) (vX 1) (eSExt 64 (vX 1)))
      else ret [rn f; rm f] (v_rd i)
               (eLanes n w (fun k => let a := E1 (OExtract k) (vX 0) in let b := E1 (OExtract k) (vX 1) in
                                     let b8 := if w =? 8 then b else eTrunc 8 b in
                                     shift w a b8 (if w =? 8 then b8 else eSExt w b8)))
  (* 762-774 *)
  | V_SHLL =>
    match DoubleWidth v with
    | Some dv => ret [rn f] (v_rd i) (eShl (eExtT sgn (TypeOf dv false) (Halve v false (vX 0))) (eSplat (NumElem dv) (ElemBits dv) (v_imm i)))
    | None => None
    end
  (* 775-787 *)
  | V_SHR =>
    if v_round i then vunhandled
    else ret [rn fs] (v_rd i) (eBin (if sgn then AShr else LShr) (vX 0) (if v_scalar i then cI w (v_imm i) else eSplat n w (v_imm i)))
  (* 788-799 *)
  | V_SHRN =>
    if v_round i then vunhandled
    else match DoubleWidth v with
         | Some sv =>
           InsertInHalf v false [rn (FacetOf sv false)] (v_rd i)
             (Narrow (NumElem sv) (ElemBits sv) (eLShr (vX 0) (eSplat (NumElem sv) (ElemBits sv) (v_imm i))))
         | None => None
         end
  (* 800-836 *)
  | V_SRA =>
    let v := if v_scalar i then VA_1D else v in
    let f := FacetOf v false in let t := TypeOf v false in
    let n := NumElem v in let w := ElemBits v in
    let lhs := if v_round i then eAdd (eExtT sgn (ExtTy v) (vX 0)) (eSplat n (2 * w) (2 ^ (v_imm i - 1) mod 2 ^ 64)) else vX 0 in
    let b := if v_round i then 2 * w else w in
    let big := b <=? v_imm i in
    let shift := if big then if sgn then b - 1 else 0 else v_imm i in
    let lhs := if big && negb sgn then eNull (TV n b) else lhs in
    let shifted := eBin (if sgn then AShr else LShr) lhs (eSplat n b shift) in
    ret [rd f; rn f] (v_rd i) (eAdd (vX 2) (if v_round i then eCast CTrunc t shifted else shifted))
  (* 837-875 *)
  | V_DUP_ELEM =>
    let e := E1 (OExtract (v_imm i)) (vX 4) in
    ret [(4%nat, v_rn i, FacetOf (FullVa v) false)] (v_rd i) (if v_scalar i then e else Dup v e)
  | V_DUP_GPR =>
    let e := if bits (v_w32 i) =? w then vX 3 else eTrunc w (vX 3) in
    Some (Some (SLet 3 (GetGp (v_xn i) (v_w32 i)) :: emit [] (v_rd i) (Dup v e)))
  | V_EXT => ret [rn f; rm f] (v_rd i) (eShuf (linear n 1 (v_imm i)) (vX 0) (vX 1))
  | V_INS_ELEM => InsertElem v [(4%nat, v_rn i, FacetOf (FullVa v) false)] (v_rd i) (v_dst i) (E1 (OExtract (v_src i)) (vX 4))
  | V_INS_GPR =>
    let e := if bits (v_w32 i) =? w then vX 3 else eTrunc w (vX 3) in
    match InsertElem v [] (v_rd i) (v_imm i) e with
    | Some (Some l) => Some (Some (SLet 3 (GetGp (v_xn i) (v_w32 i)) :: l))
    | r => r
    end
  (* 881-889 *)
  | V_MOVI => ret [] (v_rd i) (if v_scalar i then cI 64 (v_imm i) else Dup v (cI w (v_imm i)))
  (* 890-899; IRBuilder's CreateSExt/CreateZExt return the operand if the types agree. *)
  | V_SMOV | V_UMOV =>
    let e := E1 (OExtract (v_imm i)) (vX 4) in
    let b := bits (v_w32 i) in
    let x := if w =? b then e else match o with V_SMOV => eSExt b e | _ => eZExt b e end in
    Some (Some (rdv (4%nat, v_rn i, FacetOf (FullVa v) false) :: SetGp (v_xd i) x))
  | V_TBL => LiftTbl false
  | V_TBX => LiftTbl true
  (* 974-1004 *)
  | V_UZP1 => ret [rn f; rm f] (v_rd i) (eShuf (even n) (vX 0) (vX 1))
  | V_UZP2 => ret [rn f; rm f] (v_rd i) (eShuf (odd n) (vX 0) (vX 1))
  | V_XTN =>
    match DoubleWidth v with
    | Some sv => InsertInHalf v false [rn (FacetOf sv false)] (v_rd i) (Narrow (NumElem sv) (ElemBits sv) (vX 0))
    | None => None
    end
  | V_ZIP1 => ret [rn f; rm f] (v_rd i) (eShuf (zipmask_lower n) (vX 0) (vX 1))
  | V_ZIP2 => ret [rn f; rm f] (v_rd i) (eShuf (zipmask_upper n) (vX 0) (vX 1))
  (* 1005-1064 *)
  | V_CMEQ => LiftCm EQ false
  | V_CMEQ_Z => LiftCm EQ true
  | V_CMGE => LiftCm SGE false
  | V_CMGE_Z => LiftCm SGE true
  | V_CMGT => LiftCm SGT false
  | V_CMGT_Z => LiftCm SGT true
  | V_CMHI => LiftCm UGT false
  | V_CMHS => LiftCm UGE false
  | V_CMLE_Z => LiftCm SLE true
  | V_CMLT_Z => LiftCm SLT true
  (* 1065-1078 *)
  | V_CMTST =>
    let f := if v_scalar i then I64 else f in
    ret [rn f; rm f] (v_rd i) (eCast CSExt (facet_type f) (eCmp NE (eAnd (vX 0) (vX 1)) (eNull (facet_type f))))
  (* 1079-1087 *)
  | V_ABS => ret [rn fs] (v_rd i) (AbsT (facet_type fs) (vX 0))
  (* 1088-1104 *)
  | V_ABD | V_ABA =>
    let acc := match o with V_ABA => true | _ => false end in
    let diff := eSub (eExtT sgn (ExtTy v) (vX 0)) (eExtT sgn (ExtTy v) (vX 1)) in
    ret ((if acc then [rd f] else []) ++ [rn f; rm f]) (v_rd i)
        (eAdd (if acc then vX 2 else eNull t) (eCast CTrunc t (AbsT (ExtTy v) diff)))
  (* 1105-1117 *)
  | V_ABDL | V_ABAL =>
    match DoubleWidth v with
    | Some dv =>
      let acc := match o with V_ABAL => true | _ => false end in
      let t2 := TypeOf dv false in
      let diff := eSub (eExtT sgn t2 (Halve v false (vX 0))) (eExtT sgn t2 (Halve v false (vX 1))) in
      ret ((if acc then [rd (FacetOf dv false)] else []) ++ [rn f; rm f]) (v_rd i)
          (eAdd (if acc then vX 2 else eNull t2) (AbsT t2 diff))
    | None => None
    end
  (* 1118-1126 *)
  | V_NEG => ret [rn fs] (v_rd i) (eNegT (facet_type fs) (vX 0))
  (* 1127-1130, 1211-1218 *)
  | V_MUL_ELEM => LiftMulAccElem false false false
  | V_MUL => LiftMulAcc false false false
  | V_MULL_ELEM => LiftMulAccElem false false true
  | V_MULL => LiftMulAcc false false true
  | V_MLA_ELEM => LiftMulAccElem false true false
  | V_MLA => LiftMulAcc false true false
  | V_MLS_ELEM => LiftMulAccElem true true false
  | V_MLS => LiftMulAcc true true false
  | V_MLAL_ELEM => LiftMulAccElem false true true
  | V_MLAL => LiftMulAcc false true true
  | V_MLSL_ELEM => LiftMulAccElem true true true
  | V_MLSL => LiftMulAcc true true true
  (* 1131-1204 *)
  | V_ADD => LiftThreeSame Add (v_scalar i) false
  | V_ADDL => LiftLong Add false
  | V_ADDW => LiftLong Add true
  | V_SUB => LiftThreeSame Sub (v_scalar i) false
  | V_SUBL => LiftLong Sub false
  | V_SUBW => LiftLong Sub true
  | V_HADD =>
    let rhs := eExtT sgn (ExtTy v) (vX 1) in
    let rhs := if v_round i then eAdd rhs (eSplat n (2 * w) 1) else rhs in
    let sum := eAdd (eExtT sgn (ExtTy v) (vX 0)) rhs in
    ret [rn f; rm f] (v_rd i) (eCast CTrunc t (eBin (if sgn then AShr else LShr) sum (eSplat n (2 * w) 1)))
  | V_HSUB =>
    let diff := eSub (eExtT sgn (ExtTy v) (vX 0)) (eExtT sgn (ExtTy v) (vX 1)) in
    ret [rn f; rm f] (v_rd i) (eCast CTrunc t (eBin (if sgn then AShr else LShr) diff (eSplat n (2 * w) 1)))
  (* 1205-1210 *)
  | V_MAX => ret [rn f; rm f] (v_rd i) (MinMax (vX 0) (vX 1) sgn false)
  | V_MIN => ret [rn f; rm f] (v_rd i) (MinMax (vX 0) (vX 1) sgn true)
  (* 1226-1264, 1277-1331 *)
  | V_ADDP => ret [rn (FacetOf VA_2D false)] (v_rd i) (eReduce eAdd 2 (vX 0))
  | V_ADDP_VEC => Pairwise eAdd
  | V_MAXP => Pairwise (fun a b => MinMax a b sgn false)
  | V_MINP => Pairwise (fun a b => MinMax a b sgn true)
  | V_ADDV => ret [rn f] (v_rd i) (eReduce eAdd n (vX 0))
  | V_ADALP | V_ADDLP =>
    let acc := match o with V_ADALP => true | _ => false end in
    match v with
    | VA_1D | VA_2D => None
    | _ =>
      let dv := match v with VA_8B => VA_4H | VA_16B => VA_8H | VA_4H => VA_2S | VA_8H => VA_4S | VA_2S => VA_1D | _ => VA_2D end in
      let t2 := TypeOf dv false in
      let part m := eExtT sgn t2 (eShuf m (vX 0) (eNull t)) in
      ret ((if acc then [rd (FacetOf dv false)] else []) ++ [rn f]) (v_rd i)
          (eAdd (if acc then vX 2 else eNull t2) (eAdd (part (even (NumElem dv))) (part (odd (NumElem dv)))))
    end
  | V_MAXV => ret [rn f] (v_rd i) (eReduce (fun a b => E2 (OIntr2 (if sgn then SMax else UMax)) a b) n (vX 0))
  | V_MINV => ret [rn f] (v_rd i) (eReduce (fun a b => E2 (OIntr2 (if sgn then SMin else UMin)) a b) n (vX 0))
  end.
End Int.
