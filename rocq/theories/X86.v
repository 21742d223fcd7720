(** Model of the general-purpose part of the x86-64 instruction lifter:
    /repo/src/x86-64/lifter.cc, lifter-operand.cc, lifter-flags.cc,
    lifter-gp.cc and the inline members of lifter-private.h. *)

From Coq Require Import ZArith Lia List Bool.
From Verif Require Import Bits IR Facet Dsl Rv64.
Import ListNotations.
Open Scope Z_scope.

(** Mnemonics (fadec's FDI_ constants) with a general-purpose case in lifter.cc:69-227.
    Condition codes are numbered as in the Condition enum (lifter-private.h);
    [X_OTHER] is any mnemonic without a case. CPUID, RDTSC (X86Misc.v) and all vector, x87
    and fence instructions are not modelled here. *)
Inductive xmn :=
| X_NOP | X_PUSH | X_PUSHF | X_POPF | X_POP | X_LEAVE | X_CALL | X_RET | X_SYSCALL | X_LAHF | X_SAHF
| X_MOV | X_MOVZX | X_MOVSX | X_MOVBE
| X_ADD | X_ADC | X_SUB | X_SBB | X_CMP | X_XADD | X_CMPXCHG | X_XCHG | X_LEA | X_XLATB
| X_NOT | X_NEG | X_INC | X_DEC | X_AND | X_OR | X_XOR | X_TEST
| X_IMUL | X_MUL | X_IDIV | X_DIV | X_SHL | X_SHR | X_SAR | X_ROL | X_ROR | X_SHLD | X_SHRD
| X_BSF | X_TZCNT | X_BSR | X_LZCNT | X_POPCNT | X_BT | X_BTC | X_BTR | X_BTS | X_BSWAP
| X_CEXT | X_CSEP | X_CLC | X_STC | X_CMC | X_CLD | X_STD
| X_LODS | X_STOS | X_MOVS | X_SCAS | X_CMPS
| X_CMOV (cc : Z) | X_SET (cc : Z) | X_J (cc : Z)
| X_JMP | X_JCXZ | X_LOOP | X_LOOPZ | X_LOOPNZ
| X_OTHER.

(** Base register of a memory operand: FD_REG_NONE, FD_REG_IP or a register. *)
Inductive mbase := BNone | BRip | BReg (r : Z).
(** Memory operand (instr.h:96-114): base, index with log2 of the scale,
    displacement, segment register number (FD_SEGMENT; FS is 4, GS is 5) and
    address size in bytes. *)
Record xmem := XMemOp { m_base : mbase; m_index : option Z; m_lscale : Z; m_off : Z; m_seg : Z; m_asz : Z }.
(** Operands (instr.h:72-115) with their size in bits. [XReg w hi r]: FD_RT_GPL
    or, if [hi], FD_RT_GPH, where fadec numbers AH,CH,DH,BH 4..7. *)
Inductive xopnd :=
| XNone
| XReg (w : Z) (hi : bool) (r : Z)
| XImm (w : Z) (v : Z)
| XOff (v : Z)
| XMem (w : Z) (m : xmem).
(** FdInstr plus address and length (instr.h:45-147). Sizes in bytes. *)
Record xinst := XInst {
  x_mn : xmn; x_op0 : xopnd; x_op1 : xopnd; x_op2 : xopnd;
  x_opsz : Z; x_addrsz : Z; x_rep : bool; x_repnz : bool; x_lock : bool;
  x_start : Z; x_len : Z;
}.
(** instr.h:129 end(). *)
Definition x_end (i : xinst) : Z := trunc 64 (x_start i + x_len i).

(** instr.h:82 bits(). *)
Definition op_bits (o : xopnd) : Z :=
  match o with XReg w _ _ | XImm w _ | XMem w _ => w | _ => 0 end.
(** instr.h:78-80 operator bool. *)
Definition op_there (o : xopnd) : bool := match o with XNone => false | _ => true end.
Definition op_isreg (o : xopnd) : bool := match o with XReg _ _ _ => true | _ => false end.
Definition op_ismem (o : xopnd) : bool := match o with XMem _ _ => true | _ => false end.
(** instr.h:107-111 scale(). *)
Definition m_scale (m : xmem) : Z := match m_index m with Some _ => 2 ^ m_lscale m | None => 0 end.

(** Configuration read by the lifter (config.h:41-109). *)
Record xcfg := XCfg {
  xl_call : option Z; xl_syscall : option Z; xl_clobber : bool; xl_ovf : bool; xl_nativeseg : bool;
}.

(** The slots FSBASE and GSBASE of the CPU struct (fi.sptr, lifter-operand.cc:84-86)
    and the segment base implied by address spaces 257 and 256 are represented
    by two extra register cells. *)
Definition FSBASE := GP 257.
Definition GSBASE := GP 256.

(** regfile.h:89-97. *)
Definition RAX := GP 0.
Definition RCX := GP 1.
Definition RDX := GP 2.
Definition RBX := GP 3.
Definition RSP := GP 4.
Definition RBP := GP 5.
Definition RSI := GP 6.
Definition RDI := GP 7.

(** An assertion failure in the lifter: reading a temporary that is never bound. *)
Definition eAssert : dexp := ELeaf (DVar 999).

Section Lift.
Variable c : cenv.
Variable cfg : xcfg.
Variable kc : areg -> konst.
(** The same oracle after POP has written RSP. *)
Variable kcp : areg -> konst.

(** lifter-operand.cc:48-57 MapReg. *)
Definition MapReg (hi : bool) (r : Z) : areg := GP (if hi then r - 4 else r).

(** irb.CreateGEP(type of [k] bytes, base, off). *)
Definition eGep (k : Z) (base off : dexp) : dexp := E2 OGep base (eMul off (cI 64 k)).

(** lifter-operand.cc:59-143 OpAddr. [seg]: the caller's override (7: none).
    [ebits]: bit size of the element type; it only selects between two GEP
    element types of the same size (99-103), which [eGep] does not distinguish.
    An address in address space 257/256 (79-83) is represented by the sum with
    the segment base. *)
Definition OpAddrK (kc : areg -> konst) (m : xmem) (seg : Z) : dexp :=
  let seg := if seg =? 7 then m_seg m else seg in
  let fsgs := (seg =? 4) || (seg =? 5) in
  if fsgs || negb (m_asz m =? 8) then
    let w := 8 * m_asz m in
    let f := if m_asz m =? 8 then I64 else I32 in
    let res := cI w (m_off m) in
    let res := match m_base m with
               | BNone => res
               | BRip => eAdd res eAssert
               | BReg r => eAdd res (rG (MapReg false r) f)
               end in
    let res := match m_index m with
               | Some x => eAdd res (eMul (rG (MapReg false x) f) (cI w (m_scale m)))
               | None => res
               end in
    let sb := rG (if seg =? 4 then FSBASE else GSBASE) I64 in
    if fsgs && negb (xl_nativeseg cfg) then
      E1 (OCast CIntToPtr TPtr) (eZExt 64 (eAdd res sb))
    else if fsgs then
      E1 (OCast CIntToPtr TPtr) (eAdd (eZExt 64 res) sb)
    else
      E1 (OCast CIntToPtr TPtr) (eZExt 64 res)
  else
  match m_base m with
  | BRip => E1 (OCast CIntToPtr TPtr) (ELeaf (DPc (m_off m)))
  | _ =>
    let '(base, null) :=
      match m_base m with
      | BReg r =>
        match kc (MapReg false r) with
        | KInt z => (AddrConst c (z + m_off m), trunc 64 (z + m_off m) =? 0)
        | KExpr => (E1 (OCast CIntToPtr TPtr) (eAdd (rG (MapReg false r) I64) (cI 64 (m_off m))), false)
        | KNone =>
          let b := rG (MapReg false r) PTR in
          (if m_off m =? 0 then b
           else if negb (m_scale m =? 0) && (Z.rem (m_off m) (m_scale m) =? 0)
                then eGep (m_scale m) b (cI 64 (Z.quot (m_off m) (m_scale m)))
                else eGep 1 b (cI 64 (m_off m)), false)
        end
      | _ => (AddrConst c (m_off m), trunc 64 (m_off m) =? 0)
      end in
    match m_index m with
    | None => base
    | Some x =>
      let offset := rG (MapReg false x) I64 in
      if null then E1 (OCast CIntToPtr TPtr) (eMul offset (cI 64 (m_scale m)))
      else eGep (m_scale m) base offset
    end
  end.

Definition OpAddr := OpAddrK kc.

(** lifter-operand.cc:158-178 OpLoad, binding the value to [x]. *)
Definition OpLoadSeg (seg : Z) (x : nat) (o : xopnd) (f : facet) : list stm :=
  let f := facet_Resolve f (op_bits o) in
  match o with
  | XImm w v => [SLet x (cI w v)]
  | XReg _ hi r => [SLet x (rG (MapReg hi r) (if facet_eqb f I8 && hi then I8H else f))]
  | XMem _ m => [SLoad x (facet_type f) (OpAddr m seg)]
  | _ => [SLet x eAssert]
  end.
Definition OpLoad := OpLoadSeg 7.

(** lifter-operand.cc:180-196 StoreGpFacet. *)
Definition StoreGpFacet (r : areg) (f : facet) (v : dexp) : list stm :=
  match f with
  | I8H => [SSet r (eOr (eShl (eZExt 64 v) (cI 64 8)) (eAnd (rG r I64) (cI 64 0xffffffffffff00ff)))]
  | I8 | I16 => [SMerge r v]
  | _ => [SSet r v]
  end.
(** lifter-private.h:83-85 StoreGp; [w] is the width of the value's type. *)
Definition StoreGpX (r : areg) (w : Z) (v : dexp) : list stm := StoreGpFacet r (facet_In w) v.

(** lifter-operand.cc:198-214 OpStoreGp; [w] is the width of the value's type. *)
Definition OpStoreGpK (kc : areg -> konst) (o : xopnd) (w : Z) (v : dexp) : list stm :=
  match o with
  | XMem _ m => [SStore v (OpAddrK kc m 7)]
  | XReg w' hi r =>
    if w =? w' then StoreGpFacet (MapReg hi r) (if facet_eqb (facet_In w) I8 && hi then I8H else facet_In w) v
    else [SLet 63 eAssert]
  | _ => [SLet 63 eAssert]
  end.

Definition OpStoreGp := OpStoreGpK kc.

(** lifter-operand.cc:228-234 StackPush of a value of [k] bytes; the new stack
    pointer is bound to 20. *)
Definition StackPush (k : Z) (v : dexp) : list stm :=
  [SLet 20 (eGep k (rG RSP PTR) (cI 64 (-1))); SStore v (vX 20); SSet RSP (vX 20)].
(** lifter-operand.cc:236-240 StackPop, binding the value to [x]. *)
Definition StackPop (x : nat) (sp : areg) : list stm :=
  [SLet 20 (rG sp PTR); SSet RSP (eGep 8 (vX 20) (cI 64 1)); SLoad x (TInt 64) (vX 20)].

(** lifter-base.h:81-88 GetFlag. *)
Definition GetFlag (f : areg) : dexp :=
  if areg_eqb f PF then eNot 1 (eTrunc 1 (E1 (OIntr1 Ctpop) (rG PF I8))) else rG f I1.
(** lifter-base.h:89-98 SetFlagUndef. *)
Definition SetFlagUndef (l : list areg) : list stm :=
  map (fun f => SSet f (EUndef (TInt (if areg_eqb f PF then 8 else 1)))) l.

(** lifter-private.h:92-94 FlagCalcZ. *)
Definition FlagCalcZ (w : Z) (v : dexp) : list stm := [SSetT ZF IsZero (TInt w) v v v].
(** lifter-flags.cc:44-48 FlagCalcSAPLogic. *)
Definition FlagCalcSAPLogic (w : Z) (res : dexp) : list stm :=
  [SSetT SF IsNeg (TInt w) res res res; SSetT PF TruncI8 (TInt w) res res res] ++ SetFlagUndef [AF].
(** lifter-flags.cc:50-66 FlagCalcAdd. *)
Definition FlagCalcAdd (w : Z) (res lhs rhs : dexp) (skip_carry : bool) : list stm :=
  [SSetT ZF IsZero (TInt w) res res res; SSetT SF IsNeg (TInt w) res res res;
   SSetT PF TruncI8 (TInt w) res res res; SSetT AF X86AuxFlag (TInt w) res lhs rhs] ++
  (if skip_carry then [] else [SSetT CF IsULT (TInt w) res lhs lhs]) ++
  (if xl_ovf cfg then [SSet OF (E2 (OOv SAddOv) lhs rhs)]
   else [SSetT OF AddOverflowFlag (TInt w) res lhs rhs]).
(** lifter-flags.cc:68-85 FlagCalcSub; the sign comparison is bound to 21. *)
Definition FlagCalcSub (w : Z) (res lhs rhs : dexp) (skip_carry alt_zf : bool) : list stm :=
  [SLet 21 (eCmp SLT res (cI w 0));
   (if alt_zf then SSet ZF (eCmp EQ lhs rhs) else SSetT ZF IsZero (TInt w) res res res);
   SSet SF (vX 21); SSetT PF TruncI8 (TInt w) res res res; SSetT AF X86AuxFlag (TInt w) res lhs rhs] ++
  (if skip_carry then [] else [SSetT CF IsULT (TInt w) lhs rhs rhs]) ++
  [SSet OF (eCmp NE (vX 21) (eCmp SLT lhs rhs))].

(** lifter-flags.cc:87-102 FlagCond. *)
Definition FlagCond (cc : Z) : dexp :=
  let r :=
    match cc / 2 with
    | 0 => GetFlag OF
    | 1 => GetFlag CF
    | 2 => GetFlag ZF
    | 3 => eOr (GetFlag CF) (GetFlag ZF)
    | 4 => GetFlag SF
    | 5 => GetFlag PF
    | 6 => eCmp NE (GetFlag SF) (GetFlag OF)
    | 7 => eOr (GetFlag ZF) (eCmp NE (GetFlag SF) (GetFlag OF))
    | _ => eAssert
    end in
  if Z.odd cc then eNot 1 r else r.

(** lifter-flags.cc:104-107 RFLAGS_INDICES. *)
Definition rflags_indices : list (areg * Z) :=
  [(CF, 0); (PF, 2); (AF, 4); (ZF, 6); (SF, 7); (DF, 10); (OF, 11)].
(** lifter-flags.cc:109-117 FlagAsReg. *)
Definition FlagAsReg (size : Z) : dexp :=
  eTrunc size (fold_left (fun res kv => eOr res (eShl (eZExt 64 (GetFlag (fst kv))) (cI 64 (snd kv))))
                         rflags_indices (cI 64 0x202)).
(** lifter-flags.cc:119-132 FlagFromReg of a value of width [sz]. *)
Fixpoint FlagFromReg_loop (sz : Z) (val : dexp) (l : list (areg * Z)) : list stm :=
  match l with
  | [] => []
  | (f, k) :: l' =>
    if sz <=? k then []
    else (let bit := eLShr val (cI sz k) in
          if areg_eqb f PF then SSet f (eZExt 8 (eNot 1 (eTrunc 1 bit)))
          else SSet f (eTrunc 1 bit)) :: FlagFromReg_loop sz val l'
  end.
Definition FlagFromReg (sz : Z) (val : dexp) : list stm := FlagFromReg_loop sz val rflags_indices.

(** lifter-gp.cc:44-51 LiftMovgp. *)
Definition LiftMovgp (i : xinst) : list stm :=
  let w := op_bits (x_op0 i) in
  OpLoad 1 (x_op1 i) FI ++ OpStoreGp (x_op0 i) w (eSExt w (vX 1)).
(** lifter-gp.cc:53-61 LiftMovzx. *)
Definition LiftMovzx (i : xinst) : list stm :=
  let w := op_bits (x_op0 i) in
  OpLoad 1 (x_op1 i) FI ++
  if 32 <=? w then match x_op0 i with XReg _ hi r => [SSet (MapReg hi r) (vX 1)] | _ => [SLet 63 eAssert] end
  else OpStoreGp (x_op0 i) w (eZExt w (vX 1)).

(** OpAddr of an operand that is a memory operand. *)
Definition OpAddrOf (o : xopnd) : dexp := match o with XMem _ m => OpAddr m 7 | _ => eAssert end.

(** lifter-gp.cc:63-92 LiftArith. *)
Definition LiftArith (i : xinst) (sub : bool) : list stm :=
  let w := op_bits (x_op1 i) in
  OpLoad 2 (x_op1 i) FI ++
  (match x_mn i with
   | X_ADC | X_SBB => [SLet 2 (eAdd (vX 2) (eZExt w (GetFlag CF)))]
   | _ => []
   end) ++
  (if x_lock i then [SRmw 1 (if sub then RSub else RAdd) (OpAddrOf (x_op0 i)) (vX 2)]
   else OpLoad 1 (x_op0 i) FI) ++
  [SLet 3 (eBin (if sub then Sub else Add) (vX 1) (vX 2))] ++
  (match x_mn i with X_CMP => [] | _ => if x_lock i then [] else OpStoreGp (x_op0 i) w (vX 3) end) ++
  (match x_mn i with X_XADD => OpStoreGp (x_op1 i) w (vX 1) | _ => [] end) ++
  (if sub then FlagCalcSub w (vX 3) (vX 1) (vX 2) false (match x_mn i with X_CMP => true | _ => false end)
   else FlagCalcAdd w (vX 3) (vX 1) (vX 2) false).

(** lifter-gp.cc:94-119 LiftCmpxchg. *)
Definition LiftCmpxchg (i : xinst) : list stm :=
  let w := op_bits (x_op0 i) in
  [SLet 1 (rG RAX (facet_In w))] ++ OpLoad 2 (x_op1 i) FI ++
  (if x_lock i then
     [SCas 3 5 (OpAddrOf (x_op0 i)) (vX 1) (vX 2); SLet 4 (eSub (vX 1) (vX 3))] ++
     FlagCalcSub w (vX 4) (vX 1) (vX 3) false false ++ [SSet ZF (vX 5)]
   else
     OpLoad 3 (x_op0 i) FI ++ [SLet 4 (eSub (vX 1) (vX 3))] ++
     FlagCalcSub w (vX 4) (vX 1) (vX 3) false false ++
     OpStoreGp (x_op0 i) w (eSel (GetFlag ZF) (vX 2) (vX 3))) ++
  StoreGpX RAX w (vX 3).

(** lifter-gp.cc:121-133 LiftXchg. *)
Definition LiftXchg (i : xinst) : list stm :=
  let w := op_bits (x_op1 i) in
  OpLoad 2 (x_op1 i) FI ++
  (match x_op0 i with
   | XMem _ m => [SRmw 1 RXchg (OpAddr m 7) (vX 2)]
   | _ => OpLoad 1 (x_op0 i) FI ++ OpStoreGp (x_op0 i) w (vX 2)
   end) ++
  OpStoreGp (x_op1 i) w (vX 1).

(** lifter-gp.cc:135-165 LiftAndOrXor. *)
Definition LiftAndOrXor (i : xinst) (op : binop) (aop : rmwop) (writeback : bool) : list stm :=
  let w := op_bits (x_op1 i) in
  match x_mn i, x_op0 i, x_op1 i with
  | X_XOR, XReg w0 hi0 r0, XReg _ _ r1 =>
    if (r0 =? r1) && (32 <=? w0) then
      OpStoreGp (x_op0 i) w0 (cI w0 0) ++ FlagCalcSAPLogic 64 (cI 64 0) ++
      [SSet ZF (cI 1 1); SSet CF (cI 1 0); SSet OF (cI 1 0)]
    else
      OpLoad 2 (x_op1 i) FI ++ OpLoad 1 (x_op0 i) FI ++ [SLet 3 (eBin op (vX 1) (vX 2))] ++
      OpStoreGp (x_op0 i) w (vX 3) ++ FlagCalcZ w (vX 3) ++ FlagCalcSAPLogic w (vX 3) ++
      [SSet CF (cI 1 0); SSet OF (cI 1 0)]
  | _, _, _ =>
    OpLoad 2 (x_op1 i) FI ++
    (if x_lock i then [SRmw 1 aop (OpAddrOf (x_op0 i)) (vX 2)] else OpLoad 1 (x_op0 i) FI) ++
    [SLet 3 (eBin op (vX 1) (vX 2))] ++
    (if writeback && negb (x_lock i) then OpStoreGp (x_op0 i) w (vX 3) else []) ++
    FlagCalcZ w (vX 3) ++ FlagCalcSAPLogic w (vX 3) ++
    [SSet CF (cI 1 0); SSet OF (cI 1 0)]
  end.

(** lifter-gp.cc:167-176 LiftNot. *)
Definition LiftNot (i : xinst) : list stm :=
  let w := op_bits (x_op0 i) in
  if x_lock i then [SRmw 1 RXor (OpAddrOf (x_op0 i)) (cI w (-1))]
  else OpLoad 1 (x_op0 i) FI ++ OpStoreGp (x_op0 i) w (eNot w (vX 1)).
(** lifter-gp.cc:178-185 LiftNeg. *)
Definition LiftNeg (i : xinst) : list stm :=
  let w := op_bits (x_op0 i) in
  if x_lock i then [SLet 63 eAssert] else
  OpLoad 1 (x_op0 i) FI ++ [SLet 3 (eSub (cI w 0) (vX 1))] ++
  FlagCalcSub w (vX 3) (cI w 0) (vX 1) false false ++ OpStoreGp (x_op0 i) w (vX 3).
(** lifter-gp.cc:187-209 LiftIncDec. *)
Definition LiftIncDec (i : xinst) : list stm :=
  let w := op_bits (x_op0 i) in
  let sub := match x_mn i with X_DEC => true | _ => false end in
  (if x_lock i then
     [SRmw 1 (if sub then RSub else RAdd) (OpAddrOf (x_op0 i)) (cI w 1);
      SLet 3 (eBin (if sub then Sub else Add) (vX 1) (cI w 1))]
   else
     OpLoad 1 (x_op0 i) FI ++ [SLet 3 (eBin (if sub then Sub else Add) (vX 1) (cI w 1))] ++
     OpStoreGp (x_op0 i) w (vX 3)) ++
  (if sub then FlagCalcSub w (vX 3) (vX 1) (cI w 1) true false
   else FlagCalcAdd w (vX 3) (vX 1) (cI w 1) true).

(** lifter-gp.cc:211-248 LiftShift. *)
Definition LiftShift (i : xinst) (op : binop) : list stm :=
  let w := op_bits (x_op0 i) in
  let wx := if 32 <=? w then w else 32 in
  OpLoad 1 (x_op0 i) FI ++
  [SLet 2 (if 32 <=? w then vX 1
           else match x_mn i with X_SAR => eSExt 32 (vX 1) | _ => eZExt 32 (vX 1) end)] ++
  OpLoad 3 (x_op1 i) FI ++
  [SLet 3 (eAnd (eZExt wx (vX 3)) (cI wx (if w =? 64 then 0x3f else 0x1f)));
   SLet 4 (eTrunc w (eBin op (vX 2) (vX 3)))] ++
  OpStoreGp (x_op0 i) w (vX 4) ++
  [SLet 5 (match x_mn i with
           | X_SHL => eLShr (vX 2) (eSub (cI wx w) (vX 3))
           | _ => eLShr (vX 2) (eSub (vX 3) (cI wx 1))
           end)] ++
  FlagCalcZ w (vX 4) ++ FlagCalcSAPLogic w (vX 4) ++
  [SSet CF (eTrunc 1 (vX 5)); SSet OF (eCmp SLT (eXor (vX 1) (vX 4)) (cI w 0))].

(** lifter-gp.cc:250-279 LiftShiftdouble. *)
Definition LiftShiftdouble (i : xinst) : list stm :=
  let w := op_bits (x_op0 i) in
  OpLoad 1 (x_op0 i) FI ++ OpLoad 2 (x_op1 i) FI ++ OpLoad 3 (x_op2 i) FI ++
  [SLet 3 (eAnd (eZExt w (vX 3)) (cI w (if w =? 64 then 0x3f else 0x1f)));
   SLet 4 (match x_mn i with
           | X_SHLD => E3 (OFsh true) (vX 1) (vX 2) (vX 3)
           | _ => E3 (OFsh false) (vX 2) (vX 1) (vX 3)
           end)] ++
  OpStoreGp (x_op0 i) w (vX 4) ++
  FlagCalcZ w (vX 4) ++ FlagCalcSAPLogic w (vX 4) ++ SetFlagUndef [OF; CF].

(** lifter-gp.cc:281-305 LiftRotate. *)
Definition LiftRotate (i : xinst) : list stm :=
  let w := op_bits (x_op0 i) in
  OpLoad 1 (x_op0 i) FI ++ OpLoad 3 (x_op1 i) FI ++
  [SLet 3 (eAnd (eZExt w (vX 3)) (cI w (if w =? 64 then 0x3f else 0x1f)));
   SLet 4 (E3 (OFsh (match x_mn i with X_ROL => true | _ => false end)) (vX 1) (vX 1) (vX 3))] ++
  OpStoreGp (x_op0 i) w (vX 4) ++ SetFlagUndef [OF; CF].

(** lifter-gp.cc:307-364 LiftMul. *)
Definition LiftMul (i : xinst) : list stm :=
  let w := op_bits (x_op0 i) in
  let sign := match x_mn i with X_IMUL => true | _ => false end in
  let ext := if sign then eSExt else eZExt in
  (if op_there (x_op2 i) then OpLoad 1 (x_op1 i) FI ++ OpLoad 2 (x_op2 i) FI
   else if op_there (x_op1 i) then OpLoad 1 (x_op0 i) FI ++ OpLoad 2 (x_op1 i) FI
   else OpLoad 1 (x_op0 i) FI ++ [SLet 2 (rG RAX (facet_In w))]) ++
  [SLet 3 (eMul (vX 1) (vX 2)); SLet 4 (eMul (ext (2 * w) (vX 1)) (ext (2 * w) (vX 2)))] ++
  (if op_there (x_op1 i) then OpStoreGp (x_op0 i) w (vX 3)
   else if w =? 8 then StoreGpX RAX 16 (vX 4)
   else StoreGpX RAX w (eTrunc w (vX 4)) ++
        StoreGpX RDX w (eTrunc w (eLShr (vX 4) (cI (2 * w) w)))) ++
  [SLet 5 (if xl_ovf cfg then E2 (OOv (if sign then SMulOv else UMulOv)) (vX 1) (vX 2)
           else eCmp NE (vX 4) (ext (2 * w) (vX 3)));
   SSet OF (vX 5); SSet CF (vX 5)] ++
  SetFlagUndef [SF; ZF; AF; PF].

(** What the lifter finds out about the high half of the dividend
    (lifter-gp.cc:385-397): nothing, a null constant, an arithmetic shift of the
    low half by sz-1. *)
Inductive kdivk := DNone | DZero | DSext.
(** lifter-gp.cc:366-426 LiftDiv. *)
Definition LiftDiv (kd : kdivk) (i : xinst) : list stm :=
  let w := op_bits (x_op0 i) in
  let sign := match x_mn i with X_IDIV => true | _ => false end in
  let short := match kd with DNone => false | DZero => negb sign | DSext => sign end in
  let wd := if w =? 8 then 16 else if short then w else 2 * w in
  (if w =? 8 then [SLet 1 (rG RAX I16)]
   else if short then [SLet 1 (rG RAX (facet_In w))]
   else [SLet 1 (eOr (eZExt (2 * w) (rG RAX (facet_In w)))
                     (eShl (eZExt (2 * w) (rG RDX (facet_In w))) (cI (2 * w) w)))]) ++
  OpLoad 2 (x_op0 i) FI ++
  [SLet 2 ((if sign then eSExt else eZExt) wd (vX 2));
   SLet 3 (eTrunc w (eBin (if sign then SDiv else UDiv) (vX 1) (vX 2)));
   SLet 4 (eTrunc w (eBin (if sign then SRem else URem) (vX 1) (vX 2)))] ++
  (if w =? 8 then StoreGpFacet RAX I8 (vX 3) ++ StoreGpFacet RAX I8H (vX 4)
   else StoreGpX RAX w (vX 3) ++ StoreGpX RDX w (vX 4)) ++
  SetFlagUndef [OF; SF; ZF; AF; PF; CF].

(** lifter-gp.cc:428-459 LiftLea. *)
Definition LiftLea (i : xinst) : list stm :=
  match x_op1 i with
  | XMem _ m =>
    let w := op_bits (x_op0 i) in
    let aw := 8 * m_asz m in
    let f := facet_Resolve FI aw in
    let opt_add (x : dexp) (r : option dexp) := match r with Some e => eAdd x e | None => x end in
    let res :=
      match m_base m with
      | BRip => ELeaf (DPc (m_off m))
      | _ =>
        let r0 := if m_off m =? 0 then None else Some (cI aw (m_off m)) in
        let r1 := match m_index m with
                  | Some x =>
                    let o := rG (MapReg false x) f in
                    let o := if 1 <? m_scale m then eShl o (cI aw (if m_scale m =? 2 then 1 else if m_scale m =? 4 then 2 else 3)) else o in
                    Some (opt_add o r0)
                  | None => r0
                  end in
        let r2 := match m_base m with
                  | BReg b => Some (opt_add (rG (MapReg false b) f) r1)
                  | _ => r1
                  end in
        match r2 with Some e => e | None => cI aw 0 end
      end in
    OpStoreGp (x_op0 i) w (E1 (OCast CZExtOrTrunc (TInt w)) res)
  | _ => [SLet 63 eAssert]
  end.

(** lifter-gp.cc:461-474 LiftXlat; inttoptr of an i32 zero-extends, and so does
    the GEP index because it comes from an i8. *)
Definition LiftXlat (i : xinst) : list stm :=
  let bx := if x_addrsz i =? 8 then rG RBX PTR else E1 (OCast CIntToPtr TPtr) (eZExt 64 (rG RBX I32)) in
  [SLoad 1 (TInt 8) (eGep 1 bx (eSExt 64 (eZExt 32 (rG RAX I8))))] ++ StoreGpX RAX 8 (vX 1).

(** lifter-gp.cc:476-481 LiftCmovcc. *)
Definition LiftCmovcc (i : xinst) (cc : Z) : list stm :=
  let w := op_bits (x_op0 i) in
  OpLoad 1 (x_op0 i) FI ++ OpLoad 2 (x_op1 i) FI ++
  OpStoreGp (x_op0 i) w (eSel (FlagCond cc) (vX 2) (vX 1)).
(** lifter-gp.cc:483-485 LiftSetcc. *)
Definition LiftSetcc (i : xinst) (cc : Z) : list stm :=
  OpStoreGp (x_op0 i) 8 (eZExt 8 (FlagCond cc)).
(** lifter-gp.cc:487-491 LiftCext. *)
Definition LiftCext (i : xinst) : list stm :=
  let w := 8 * x_opsz i in
  StoreGpX RAX w (eSExt w (rG RAX (facet_In (w / 2)))).
(** lifter-gp.cc:493-497 LiftCsep. *)
Definition LiftCsep (i : xinst) : list stm :=
  let w := 8 * x_opsz i in
  StoreGpX RDX w (eAShr (rG RAX (facet_In w)) (cI w (w - 1))).

(** lifter-gp.cc:499-522 LiftBitscan. *)
Definition LiftBitscan (i : xinst) (trailing : bool) : list stm :=
  let w := op_bits (x_op1 i) in
  OpLoad 1 (x_op0 i) (if w =? 16 then I16 else I64) ++ OpLoad 2 (x_op1 i) FI ++
  [SLet 3 (let r := E1 (OIntr1 (if trailing then Cttz true else Ctlz true)) (vX 2) in
           if trailing then r else eSub (cI w (w - 1)) r);
   SLet 4 (eCmp EQ (vX 2) (cI w 0))] ++
  (if w =? 32 then
     match x_op0 i with
     | XReg _ hi r => [SSet (MapReg hi r) (eSel (vX 4) (vX 1) (eZExt 64 (vX 3)))]
     | _ => [SLet 63 eAssert]
     end
   else OpStoreGp (x_op0 i) w (eSel (vX 4) (vX 1) (vX 3))) ++
  [SSet ZF (vX 4)] ++ SetFlagUndef [OF; SF; AF; PF; CF].

(** lifter-gp.cc:524-534 LiftPopcnt. *)
Definition LiftPopcnt (i : xinst) : list stm :=
  let w := op_bits (x_op1 i) in
  OpLoad 1 (x_op1 i) FI ++ OpStoreGp (x_op0 i) w (E1 (OIntr1 Ctpop) (vX 1)) ++
  FlagCalcZ w (vX 1) ++
  [SSet OF (cI 1 0); SSet SF (cI 1 0); SSet AF (cI 1 0); SSet PF (cI 8 1); SSet CF (cI 1 0)].

(** lifter-gp.cc:536-587 LiftBittest; [__builtin_ctz(op_size)] is log2. *)
Definition LiftBittest (i : xinst) (op : binop) (aop : rmwop) : list stm :=
  let w := op_bits (x_op0 i) in
  let btr := match x_mn i with X_BTR => true | _ => false end in
  OpLoad 1 (x_op1 i) FI ++
  (match x_op0 i with
   | XMem _ m =>
     [SLet 2 (if op_isreg (x_op1 i)
              then eGep (w / 8) (OpAddr m 7) (eSExt 64 (eAShr (vX 1) (cI (op_bits (x_op1 i)) (Z.log2 w))))
              else OpAddr m 7)]
   | _ => []
   end) ++
  [SLet 1 (eAnd (eZExt w (vX 1)) (cI w (w - 1)));
   SLet 3 (eShl (cI w 1) (vX 1));
   SLet 4 (if btr then eNot w (vX 3) else vX 3)] ++
  (if x_lock i then [SRmw 5 aop (vX 2) (vX 4)]
   else
     (if op_isreg (x_op0 i) then OpLoad 5 (x_op0 i) FI else [SLoad 5 (TInt w) (vX 2)]) ++
     match x_mn i with
     | X_BT => []
     | _ => if op_isreg (x_op0 i) then OpStoreGp (x_op0 i) w (eBin op (vX 5) (vX 4))
            else [SStore (eBin op (vX 5) (vX 4)) (vX 2)]
     end) ++
  [SSet CF (eCmp NE (eAnd (vX 5) (vX 3)) (cI w 0))] ++ SetFlagUndef [OF; SF; AF; PF].

(** lifter-gp.cc:589-592 LiftMovbe. *)
Definition LiftMovbe (i : xinst) : list stm :=
  OpLoad 1 (x_op1 i) FI ++ OpStoreGp (x_op0 i) (op_bits (x_op1 i)) (E1 (OIntr1 Bswap) (vX 1)).
(** lifter-gp.cc:594-598 LiftBswap. *)
Definition LiftBswap (i : xinst) : list stm :=
  OpLoad 1 (x_op0 i) FI ++ OpStoreGp (x_op0 i) (op_bits (x_op0 i)) (E1 (OIntr1 Bswap) (vX 1)).

(** inst.end() + inst.op(0).pcrel(). *)
Definition x_target (i : xinst) : Z :=
  match x_op0 i with XOff d => trunc 64 (x_end i + d) | _ => 0 end.
(** lifter-gp.cc:600-606 LiftJmp; the data segment is forced. *)
Definition LiftJmp (i : xinst) : list stm :=
  match x_op0 i with
  | XOff _ => [SPcConst (x_target i)]
  | o => OpLoadSeg 3 1 o I64 ++ [SPcVal (vX 1)]
  end.
(** lifter-gp.cc:608-610 LiftJcc. *)
Definition LiftJcc (i : xinst) (cc : Z) : list stm := [SPcCond (FlagCond cc) (x_target i) (x_end i)].
(** lifter-gp.cc:612-617 LiftJcxz. *)
Definition LiftJcxz (i : xinst) : list stm :=
  let w := 8 * x_addrsz i in
  [SPcCond (eCmp EQ (rG RCX (facet_In w)) (cI w 0)) (x_target i) (x_end i)].
(** lifter-gp.cc:619-635 LiftLoop. *)
Definition LiftLoop (i : xinst) : list stm :=
  let w := 8 * x_addrsz i in
  [SLet 1 (eSub (rG RCX (facet_In w)) (cI w 1))] ++ StoreGpX RCX w (vX 1) ++
  [SPcCond (let k := eCmp NE (vX 1) (cI w 0) in
            match x_mn i with
            | X_LOOPZ => eAnd k (GetFlag ZF)
            | X_LOOPNZ => eAnd k (eNot 1 (GetFlag ZF))
            | _ => k
            end) (x_target i) (x_end i)].

Definition status_flags : list areg := [OF; SF; ZF; AF; PF; CF].
(** lifter-gp.cc:637-661 LiftCall. *)
Definition LiftCall (i : xinst) : list stm :=
  (if xl_clobber cfg then SetFlagUndef status_flags else []) ++
  (match x_op0 i with
   | XOff d => [SLet 1 (ELeaf (DPc d))]
   | o => OpLoadSeg 3 1 o FI
   end) ++
  StackPush 8 (ELeaf (DPc 0)) ++ [SPcVal (vX 1)] ++
  match xl_call cfg with Some f => [SCall f; SPcCallret (x_end i)] | None => [] end.
(** lifter-gp.cc:663-682 LiftRet. *)
Definition LiftRet (i : xinst) : list stm :=
  (if xl_clobber cfg then SetFlagUndef status_flags else []) ++
  StackPop 1 RSP ++ [SPcVal (vX 1)] ++
  (match x_op0 i with XImm _ v => [SSet RSP (eGep 1 (rG RSP PTR) (cI 64 v))] | _ => [] end) ++
  match xl_call cfg with Some _ => [SRet] | None => [] end.
(** lifter-gp.cc:684-690 LiftSyscall. *)
Definition LiftSyscall (i : xinst) : list stm :=
  [SSet RCX (ELeaf (DPc 0)); SSet (GP 11) (FlagAsReg 64)] ++
  match xl_syscall cfg with Some f => [SCall f] | None => [] end.

(** lifter-private.h:150-167, inline members. *)
Definition LiftPush (i : xinst) : list stm :=
  OpLoad 1 (x_op0 i) FI ++ StackPush (op_bits (x_op0 i) / 8) (vX 1).
Definition LiftPushf (i : xinst) : list stm := StackPush (x_opsz i) (FlagAsReg (8 * x_opsz i)).
Definition LiftPop (i : xinst) : list stm := StackPop 1 RSP ++ OpStoreGpK kcp (x_op0 i) 64 (vX 1).
Definition LiftPopf (i : xinst) : list stm := StackPop 1 RSP ++ FlagFromReg 64 (vX 1).
Definition LiftLeave (i : xinst) : list stm := StackPop 1 RBP ++ StoreGpX RBP 64 (vX 1).

(** lifter.cc:71-227: instructions lifted to straight-line code; [None] for those
    that are not ([lift_str] below and unknown mnemonics). *)
Definition lift_gp (kd : kdivk) (i : xinst) : option (list stm) :=
  match x_mn i with
  | X_NOP => Some []
  | X_PUSH => Some (LiftPush i)
  | X_PUSHF => Some (LiftPushf i)
  | X_POPF => Some (LiftPopf i)
  | X_POP => Some (LiftPop i)
  | X_LEAVE => Some (LiftLeave i)
  | X_CALL => Some (LiftCall i)
  | X_RET => Some (LiftRet i)
  | X_SYSCALL => Some (LiftSyscall i)
  | X_LAHF => Some (StoreGpFacet RAX I8H (FlagAsReg 8))
  | X_SAHF => Some (SLet 1 (rG RAX I8H) :: FlagFromReg 8 (vX 1))
  | X_MOV | X_MOVSX => Some (LiftMovgp i)
  | X_MOVZX => Some (LiftMovzx i)
  | X_MOVBE => Some (LiftMovbe i)
  | X_ADD | X_ADC | X_XADD => Some (LiftArith i false)
  | X_SUB | X_SBB | X_CMP => Some (LiftArith i true)
  | X_CMPXCHG => Some (LiftCmpxchg i)
  | X_XCHG => Some (LiftXchg i)
  | X_LEA => Some (LiftLea i)
  | X_XLATB => Some (LiftXlat i)
  | X_NOT => Some (LiftNot i)
  | X_NEG => Some (LiftNeg i)
  | X_INC | X_DEC => Some (LiftIncDec i)
  | X_AND => Some (LiftAndOrXor i And RAnd true)
  | X_OR => Some (LiftAndOrXor i Or ROr true)
  | X_XOR => Some (LiftAndOrXor i Xor RXor true)
  | X_TEST => Some (LiftAndOrXor i And RAnd false)
  | X_IMUL | X_MUL => Some (LiftMul i)
  | X_IDIV | X_DIV => Some (LiftDiv kd i)
  | X_SHL => Some (LiftShift i Shl)
  | X_SHR => Some (LiftShift i LShr)
  | X_SAR => Some (LiftShift i AShr)
  | X_ROL | X_ROR => Some (LiftRotate i)
  | X_SHLD | X_SHRD => Some (LiftShiftdouble i)
  | X_BSF | X_TZCNT => Some (LiftBitscan i true)
  | X_BSR | X_LZCNT => Some (LiftBitscan i false)
  | X_POPCNT => Some (LiftPopcnt i)
  | X_BT => Some (LiftBittest i Or ROr)
  | X_BTC => Some (LiftBittest i Xor RXor)
  | X_BTR => Some (LiftBittest i And RAnd)
  | X_BTS => Some (LiftBittest i Or ROr)
  | X_BSWAP => Some (LiftBswap i)
  | X_CEXT => Some (LiftCext i)
  | X_CSEP => Some (LiftCsep i)
  | X_CLC => Some [SSet CF (cI 1 0)]
  | X_STC => Some [SSet CF (cI 1 1)]
  | X_CMC => Some [SSet CF (eNot 1 (GetFlag CF))]
  | X_CLD => Some [SSet DF (cI 1 0)]
  | X_STD => Some [SSet DF (cI 1 1)]
  | X_CMOV cc => Some (LiftCmovcc i cc)
  | X_SET cc => Some (LiftSetcc i cc)
  | X_J cc => Some (LiftJcc i cc)
  | X_JMP => Some (LiftJmp i)
  | X_JCXZ => Some (LiftJcxz i)
  | X_LOOP | X_LOOPZ | X_LOOPNZ => Some (LiftLoop i)
  | X_LODS | X_STOS | X_MOVS | X_SCAS | X_CMPS | X_OTHER => None
  end.

(** ** String instructions *)

(** Control flow inside one instruction: straight-line code; a header that
    either enters a single-block do-while loop or skips it; a two-armed branch.
    PHIs are triples: variable, value from the header (first arm), value from
    the loop block (second arm). *)
Inductive xcode :=
| CPlain (l : list stm)
| CLoop (head : list stm) (guard : dexp) (phi : list (nat * dexp * dexp))
        (body : list stm) (again : dexp) (cphi : list (nat * dexp * dexp)) (cont : list stm)
| CIf (head : list stm) (guard : dexp) (l1 l2 : list stm) (phi : list (nat * dexp * dexp)) (cont : list stm).

(** RepInfo::RepMode, lifter-private.h:104. *)
Inductive repmode := NO_REP | REP | REPZ | REPNZ.
(** lifter-gp.cc:729-735. *)
Definition rep_mode (i : xinst) : repmode :=
  let condrep := match x_mn i with X_SCAS | X_CMPS => true | _ => false end in
  if x_rep i then (if condrep then REPZ else REP)
  else if x_repnz i && condrep then REPNZ else NO_REP.

Definition str_di (i : xinst) : bool := match x_mn i with X_LODS => false | _ => true end.
Definition str_si (i : xinst) : bool := match x_mn i with X_STOS | X_SCAS => false | _ => true end.

(** Temporaries: 1 adj, 2/3 header di/si, 4 header count, 5..10 saved flags,
    12/13/14 loop PHIs di/si/count, 15/16/17 their next values, 22/23/24 cont
    PHIs di/si/count, 30/31 compared values in the loop, 32/33 their PHIs in
    cont, 34 lf, 35 merged accumulator. *)
Definition v_adj := 1%nat.  Definition v_di := 2%nat.  Definition v_si := 3%nat.  Definition v_cnt := 4%nat.
Definition l_di := 12%nat.  Definition l_si := 13%nat.  Definition l_cnt := 14%nat.
Definition n_di := 15%nat.  Definition n_si := 16%nat.  Definition n_cnt := 17%nat.
Definition k_di := 22%nat.  Definition k_si := 23%nat.  Definition k_cnt := 24%nat.
Definition v_a := 30%nat.  Definition v_b := 31%nat.  Definition k_a := 32%nat.  Definition k_b := 33%nat.
Definition v_lf := 34%nat.  Definition v_new := 36%nat.  Definition v_old := 37%nat.  Definition v_mrg := 38%nat.

(** lifter-gp.cc:737-743 (common part of RepBegin). *)
Definition rep_head (i : xinst) : list stm :=
  [SLet v_adj (eSel (GetFlag DF) (cI 64 (-1)) (cI 64 1))] ++
  (if str_di i then [SLet v_di (rG RDI PTR)] else []) ++
  (if str_si i then [SLet v_si (rG RSI PTR)] else []).

(** lifter-gp.cc:788-801 RepEnd without REP. [cmp]: operands of the comparison. *)
Definition rep_end_plain (i : xinst) (cmp : bool) : list stm :=
  let k := x_opsz i in
  (if str_di i then [SSet RDI (eGep k (vX v_di) (vX v_adj))] else []) ++
  (if str_si i then [SSet RSI (eGep k (vX v_si) (vX v_adj))] else []) ++
  (if cmp then [SLet 11 (eSub (vX v_a) (vX v_b))] ++ FlagCalcSub (8 * k) (vX 11) (vX v_a) (vX v_b) false false else []).

(** lifter-gp.cc:753-760: the flags saved for a conditional repeat. *)
Definition rep_save : list stm :=
  [SLet 5 (GetFlag OF); SLet 6 (GetFlag SF); SLet 7 (GetFlag ZF); SLet 8 (GetFlag AF);
   SLet 9 (GetFlag PF); SLet 10 (GetFlag CF)].
(** lifter-gp.cc:838-843: merge of the flags. *)
Definition rep_merge_flags : list stm :=
  [SSet OF (eSel (vX v_lf) (GetFlag OF) (vX 5)); SSet SF (eSel (vX v_lf) (GetFlag SF) (vX 6));
   SSet ZF (eSel (vX v_lf) (GetFlag ZF) (vX 7)); SSet AF (eSel (vX v_lf) (GetFlag AF) (vX 8));
   SSet PF (eNot 1 (eSel (vX v_lf) (GetFlag PF) (vX 9))); SSet CF (eSel (vX v_lf) (GetFlag CF) (vX 10))].

(** lifter-gp.cc:745-785 (rest of RepBegin) and 803-852 (rest of RepEnd): the
    loop around [body]. [cmp]: the instruction compares (v_a, v_b), where
    [cmpvars] are the PHI values; [extra]: further PHIs in the cont block. *)
Definition rep_loop (i : xinst) (pre body : list stm) (cmp : bool)
    (extra : list (nat * dexp * dexp)) (post : list stm) : xcode :=
  let k := x_opsz i in let w := 8 * k in
  CLoop
    (pre ++ rep_head i ++
     (if cmp then rep_save else []) ++
     [SLet v_cnt (rG RCX I64)])
    (eCmp NE (vX v_cnt) (cI 64 0))
    ((if str_di i then [(l_di, vX v_di, vX n_di)] else []) ++
     (if str_si i then [(l_si, vX v_si, vX n_si)] else []) ++
     [(l_cnt, vX v_cnt, vX n_cnt)])
    (body ++
     (if str_di i then [SLet n_di (eGep k (vX l_di) (vX v_adj))] else []) ++
     (if str_si i then [SLet n_si (eGep k (vX l_si) (vX v_adj))] else []) ++
     [SLet n_cnt (eSub (vX l_cnt) (cI 64 1))])
    (let e := eCmp NE (vX n_cnt) (cI 64 0) in
     match rep_mode i with
     | REPZ => eAnd e (eCmp EQ (vX v_a) (vX v_b))
     | REPNZ => eAnd e (eCmp NE (vX v_a) (vX v_b))
     | _ => e
     end)
    ((if str_di i then [(k_di, vX v_di, vX n_di)] else []) ++
     (if str_si i then [(k_si, vX v_si, vX n_si)] else []) ++
     [(k_cnt, vX v_cnt, vX n_cnt)] ++
     (if cmp then [(v_lf, cI 1 0, cI 1 1); (k_a, cI w 0, vX v_a); (k_b, cI w 0, vX v_b)] else []) ++ extra)
    ((if cmp then [SLet 11 (eSub (vX k_a) (vX k_b))] ++
                  FlagCalcSub w (vX 11) (vX k_a) (vX k_b) false false ++ rep_merge_flags
      else []) ++
     (if str_di i then [SSet RDI (vX k_di)] else []) ++
     (if str_si i then [SSet RSI (vX k_si)] else []) ++
     [SSet RCX (vX k_cnt)] ++ post).

(** The di/si value the body uses: loop PHI or header value. *)
Definition di_of (i : xinst) : dexp := vX (match rep_mode i with NO_REP => v_di | _ => l_di end).
Definition si_of (i : xinst) : dexp := vX (match rep_mode i with NO_REP => v_si | _ => l_si end).
Definition str_code (i : xinst) (pre body : list stm) (cmp : bool) : xcode :=
  match rep_mode i with
  | NO_REP => CPlain (pre ++ rep_head i ++ body ++ rep_end_plain i cmp)
  | _ => rep_loop i pre body cmp [] []
  end.

(** lifter-gp.cc:854-870 LiftLods. *)
Definition LiftLods (i : xinst) : xcode :=
  let w := 8 * x_opsz i in
  let ld x := [SLoad x (TInt w) (si_of i)] in
  match rep_mode i with
  | NO_REP => CPlain (rep_head i ++ ld v_new ++ rep_end_plain i false ++ StoreGpX RAX w (vX v_new))
  | _ =>
    let wm := if x_opsz i =? 4 then 64 else w in
    rep_loop i [SLet v_old (rG RAX (facet_In wm))]
      (ld v_new ++ (if x_opsz i =? 4 then [SLet v_new (eZExt 64 (vX v_new))] else [])) false
      [(v_mrg, vX v_old, vX v_new)] (StoreGpX RAX wm (vX v_mrg))
  end.
(** lifter-gp.cc:872-914 LiftStos. *)
Definition LiftStos (i : xinst) : xcode :=
  if x_rep i && (x_opsz i =? 1) then
    CIf [SLet 2 (rG RDI PTR); SLet 3 (rG RCX I64); SLet 4 (rG RAX I8); SLet 5 (GetFlag DF)] (vX 5)
        [SLet 6 (eSub (cI 64 1) (vX 3)); SLet 7 (eGep 1 (vX 2) (vX 6)); SMemset (vX 7) (vX 4) (vX 3);
         SLet 8 (eGep 1 (vX 7) (cI 64 (-1)))]
        [SMemset (vX 2) (vX 4) (vX 3); SLet 8 (eGep 1 (vX 2) (vX 3))]
        [(9%nat, vX 8, vX 8)]
        [SSet RDI (vX 9); SSet RCX (cI 64 0)]
  else
    str_code i [SLet v_old (rG RAX (facet_In (8 * x_opsz i)))] [SStore (vX v_old) (di_of i)] false.
(** lifter-gp.cc:916-921 LiftMovs. *)
Definition LiftMovs (i : xinst) : xcode :=
  str_code i [] [SLoad v_new (TInt (8 * x_opsz i)) (si_of i); SStore (vX v_new) (di_of i)] false.
(** lifter-gp.cc:923-929 LiftScas. *)
Definition LiftScas (i : xinst) : xcode :=
  str_code i [SLet v_a (rG RAX (facet_In (8 * x_opsz i)))] [SLoad v_b (TInt (8 * x_opsz i)) (di_of i)] true.
(** lifter-gp.cc:931-936 LiftCmps. *)
Definition LiftCmps (i : xinst) : xcode :=
  str_code i [] [SLoad v_a (TInt (8 * x_opsz i)) (si_of i); SLoad v_b (TInt (8 * x_opsz i)) (di_of i)] true.

Definition lift_str (i : xinst) : option xcode :=
  match x_mn i with
  | X_LODS => Some (LiftLods i)
  | X_STOS => Some (LiftStos i)
  | X_MOVS => Some (LiftMovs i)
  | X_SCAS => Some (LiftScas i)
  | X_CMPS => Some (LiftCmps i)
  | _ => None
  end.

(** Prefixing straight-line code. *)
Definition code_pre (p : list stm) (k : xcode) : xcode :=
  match k with
  | CPlain l => CPlain (p ++ l)
  | CLoop h g phi b a cphi cont => CLoop (p ++ h) g phi b a cphi cont
  | CIf h g l1 l2 phi cont => CIf (p ++ h) g l1 l2 phi cont
  end.

(** lifter.cc:47-75 Lift: success flag and code. [ovr]: the override for this
    mnemonic (cfg.instr_overrides). The instruction marker (52-60) is not
    modelled. *)
Definition lift_x86 (ovr : option Z) (kd : kdivk) (i : xinst) : bool * xcode :=
  match ovr with
  | Some f => (true, CPlain [SPcConst (x_end i); SCall f])
  | None =>
    match lift_gp kd i with
    | Some l => (true, CPlain (SPcConst (x_end i) :: l))
    | None =>
      match lift_str i with
      | Some k => (true, code_pre [SPcConst (x_end i)] k)
      | None => (false, CPlain [SPcConst (x_end i); SPcVal (cI 64 (x_start i))])
      end
    end
  end.
End Lift.

(** ** Execution of [xcode] *)
Section Exec.
Context `{FpuOps}.
Variable c : cenv.

(** PHIs are evaluated in parallel; [sel] picks the incoming edge. *)
Fixpoint phi_vals (s : st) (second : bool) (l : list (nat * dexp * dexp)) : res (list (nat * rv)) :=
  match l with
  | [] => Ok []
  | (x, e1, e2) :: l' =>
    do v <- ev c s (if second then e2 else e1);
    do r <- phi_vals s second l';
    Ok ((x, v) :: r)
  end.
Definition set_phis (s : st) (l : list (nat * rv)) : st :=
  with_var s (fold_right (fun xv m => upd_var m (fst xv) (snd xv)) (s_var s) l).
Definition do_phis (s : st) (second : bool) (l : list (nat * dexp * dexp)) : res st :=
  do r <- phi_vals s second l; Ok (set_phis s r).

(** A branch condition: poison is UB. *)
Definition cond_val (s : st) (e : dexp) : res bool :=
  do v <- ev c s e;
  match v with
  | V (TInt 1) z => Ok (negb (z =? 0))
  | Poison (TInt 1) => UB
  | _ => TyErr
  end.

(** The loop block: body, then either the back edge or the exit edge. [loop s o]
    relates a state at the start of the body (PHIs done) to the outcome at the
    exit of the loop block. *)
Inductive loop (phi : list (nat * dexp * dexp)) (body : list stm) (again : dexp) : st -> res st -> Prop :=
| loop_exit s s1 : run c s body = Ok s1 -> cond_val s1 again = Ok false -> loop phi body again s (Ok s1)
| loop_next s s1 s2 o : run c s body = Ok s1 -> cond_val s1 again = Ok true -> do_phis s1 true phi = Ok s2 ->
    loop phi body again s2 o -> loop phi body again s o
| loop_body_ub s : run c s body = UB -> loop phi body again s UB
| loop_cond_ub s s1 : run c s body = Ok s1 -> cond_val s1 again = UB -> loop phi body again s UB
| loop_phi_ub s s1 : run c s body = Ok s1 -> cond_val s1 again = Ok true -> do_phis s1 true phi = UB ->
    loop phi body again s UB.

(** Big-step execution; ill-typed code has no execution. *)
Inductive xrun (s : st) : xcode -> res st -> Prop :=
| xrun_plain l : xrun s (CPlain l) (run c s l)
| xrun_skip h g phi b a cphi cont s1 s2 : run c s h = Ok s1 -> cond_val s1 g = Ok false ->
    do_phis s1 false cphi = Ok s2 -> xrun s (CLoop h g phi b a cphi cont) (run c s2 cont)
| xrun_loop h g phi b a cphi cont s1 s2 s3 s4 : run c s h = Ok s1 -> cond_val s1 g = Ok true ->
    do_phis s1 false phi = Ok s2 -> loop phi b a s2 (Ok s3) -> do_phis s3 true cphi = Ok s4 ->
    xrun s (CLoop h g phi b a cphi cont) (run c s4 cont)
| xrun_loop_ub h g phi b a cphi cont s1 s2 : run c s h = Ok s1 -> cond_val s1 g = Ok true ->
    do_phis s1 false phi = Ok s2 -> loop phi b a s2 UB ->
    xrun s (CLoop h g phi b a cphi cont) UB
| xrun_if h g l1 l2 phi cont s1 b s2 s3 : run c s h = Ok s1 -> cond_val s1 g = Ok b ->
    run c s1 (if b then l1 else l2) = Ok s2 -> do_phis s2 (negb b) phi = Ok s3 ->
    xrun s (CIf h g l1 l2 phi cont) (run c s3 cont)
| xrun_if_ub h g l1 l2 phi cont s1 b : run c s h = Ok s1 -> cond_val s1 g = Ok b ->
    run c s1 (if b then l1 else l2) = UB -> xrun s (CIf h g l1 l2 phi cont) UB
| xrun_head_ub k : (match k with CLoop h _ _ _ _ _ _ | CIf h _ _ _ _ _ => run c s h = UB | _ => False end) ->
    xrun s k UB
| xrun_guard_ub k s1 : (match k with CLoop h g _ _ _ _ _ | CIf h g _ _ _ _ =>
      run c s h = Ok s1 /\ cond_val s1 g = UB | _ => False end) -> xrun s k UB.
End Exec.
