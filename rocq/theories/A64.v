(** Model of the AArch64 instruction lifter, /repo/src/a64/main.cc. Scalar floating
    point and simd.cc are in A64Simd.v, A64SimdMem.v and A64SimdFp.v. *)

From Coq Require Import ZArith Lia List Bool.
From Verif Require Import Bits IR Facet Dsl.
From Verif Require Export A64Base.
From Verif Require A64Simd A64SimdMem A64SimdFp.
Import ListNotations.
Open Scope Z_scope.

(** farmdec::Op values with a case in main.cc:78-910 that is modelled here. [A_OTHER]:
    every operation that LiftSIMD rejects or that has no case (main.cc:79-87).
    [A_VEC]: an operation of simd.cc or of the scalar floating-point part of main.cc.
    SBFM, BFM and UBFM (118-120, 155-157, 183-185) never come out of the decoder. *)
Inductive aop :=
| A_ADR | A_ADRP
| A_AND_IMM | A_TST_IMM | A_ORR_IMM | A_EOR_IMM | A_ADD_IMM | A_MOV_SP | A_CMN_IMM | A_SUB_IMM | A_CMP_IMM
| A_MOVK | A_MOV_IMM | A_ASR_IMM | A_SBFIZ | A_SBFX | A_BFC | A_BFI | A_BFXIL | A_LSL_IMM | A_LSR_IMM
| A_UBFIZ | A_UBFX | A_EXTEND | A_EXTR | A_ROR_IMM
| A_BCOND | A_SVC | A_HINT | A_DMB | A_MSR_REG | A_CFINV | A_SYS | A_MRS
| A_B | A_BR | A_BL | A_BLR | A_RET | A_CBZ | A_CBNZ | A_TBZ | A_TBNZ
| A_UDIV | A_SDIV | A_LSLV | A_LSRV | A_ASRV | A_RORV
| A_RBIT | A_REV16 | A_REV | A_REV32 | A_CLZ | A_CLS
| A_AND_SHIFTED | A_TST_SHIFTED | A_BIC | A_ORR_SHIFTED | A_ORN | A_MVN | A_MOV_REG | A_EOR_SHIFTED | A_EON
| A_ADD_SHIFTED | A_CMN_SHIFTED | A_SUB_SHIFTED | A_NEG | A_CMP_SHIFTED
| A_ADD_EXT | A_CMN_EXT | A_SUB_EXT | A_CMP_EXT
| A_ADC | A_SBC | A_NGC | A_CCMN_REG | A_CCMP_REG | A_CCMN_IMM | A_CCMP_IMM
| A_CSEL | A_CSINC | A_CINC | A_CSET | A_CSINV | A_CINV | A_CSETM | A_CSNEG | A_CNEG
| A_MUL | A_MADD | A_MSUB | A_MNEG
| A_SMADDL | A_SMULL | A_SMSUBL | A_SMNEGL | A_SMULH | A_UMADDL | A_UMULL | A_UMSUBL | A_UMNEGL | A_UMULH
| A_LDXR | A_LDXP | A_STXR | A_STXP | A_LDP | A_STP | A_LDR | A_STR
| A_LDP_FP | A_STP_FP | A_LDR_FP | A_STR_FP
| A_FCSEL | A_FMOV_VEC2GPR | A_FMOV_GPR2VEC | A_FMOV_TOP2GPR | A_FMOV_GPR2TOP | A_FMOV_REG
| A_FCCMP | A_VEC (v : A64Simd.vinst)
| A_OTHER.

(** farmdec::Shift, ExtendType (the low two bits are the size), AddrMode. *)
Inductive shk := SH_LSL | SH_LSR | SH_ASR | SH_ROR.
Inductive extk := UXTB | UXTH | UXTW | UXTX | SXTB | SXTH | SXTW | SXTX.
Inductive amode := AM_SIMPLE | AM_OFF_IMM | AM_OFF_REG | AM_OFF_EXT | AM_PRE | AM_POST | AM_LITERAL.

(** farmdec::Inst (not in the checkout) as main.cc uses it, and the instruction's
    address. Members that share storage in farmdec are separate fields here. *)
Record ainst := AInst {
  a_op : aop; a_w32 : bool; a_flags : bool;
  a_rd : xr; a_rn : xr; a_rm : xr; a_ra : xr;        (* rd is also rt *)
  a_rt2 : xr; a_rs : xr;
  a_imm : Z; a_off : Z;
  a_sh : shk; a_amt : Z; a_ext : extk; a_lsl : Z;    (* shift.type/amount, extend.type/lsl *)
  a_lsb : Z; a_width : Z;                            (* bfm *)
  a_cond : Z; a_bit : Z; a_nzcv : Z;
  a_mode : amode; a_mext : extk; a_fsz : fsz;        (* fad_get_addrmode, fad_get_mem_extend, fad_get_prec *)
  a_vd : Z; a_vn : Z; a_vm : Z; a_vt2 : Z;           (* SIMD&FP registers; vd is also vt *)
  a_start : Z;
}.
(** instr.h: A64 instructions have four bytes. *)
Definition a_end (i : ainst) : Z := trunc 64 (a_start i + 4).

(** Configuration read by the lifter (config.h:41-109). *)
Record acfg := ACfg { al_call : option Z; al_syscall : option Z; al_clobber : bool; al_ovf : bool }.

(** The TPIDR_EL0 slot of the CPU struct (fi.sptr, main.cc:272-276,305-310) is
    represented by an extra register cell. *)
Definition TPIDR := GP 256.

Section Lift.
Variable c : cenv.
Variable cfg : acfg.

(** lifter-base.h:81-88 GetFlag (not used with PF here). *)
Definition GetFlag (f : areg) : dexp := rG f I1.
Definition eNot (w : Z) (e : dexp) : dexp := eXor e (cI w (-1)).

(** main.cc:944-956 FlagCalcAdd; the operands are temporaries. *)
Definition FlagCalcAdd (w : Z) (res lhs rhs : dexp) : list stm :=
  [SSetT ZF IsZero (TInt w) res res res;
   SSetT SF IsNeg (TInt w) res res res;
   SSetT CF IsULT (TInt w) res lhs lhs;
   if al_ovf cfg then SSet OF (E2 (OOv SAddOv) lhs rhs)
   else SSetT OF AddOverflowFlag (TInt w) res lhs rhs].
(** main.cc:958-965 FlagCalcSub. *)
Definition FlagCalcSub (w : Z) (res lhs rhs : dexp) : list stm :=
  let sf := eCmp SLT res (cI w 0) in
  [SSet ZF (eCmp EQ lhs rhs);
   SSet SF sf;
   SSet CF (eCmp UGE lhs rhs);
   SSet OF (eCmp NE sf (eCmp SLT lhs rhs))].
(** main.cc:967-972 FlagCalcLogic. *)
Definition FlagCalcLogic (w : Z) (res : dexp) : list stm :=
  [SSetT ZF IsZero (TInt w) res res res;
   SSetT SF IsNeg (TInt w) res res res;
   SSet CF (cI 1 0);
   SSet OF (cI 1 0)].

(** main.cc:1001-1018 Shift of a value of [w] bits; [None]: assertion. *)
Definition Shift (w : Z) (v : dexp) (sh : shk) (amount : Z) : option dexp :=
  if negb (amount <? w) then None
  else if amount =? 0 then Some v
  else Some match sh with
  | SH_LSL => eShl v (cI w amount)
  | SH_LSR => eLShr v (cI w amount)
  | SH_ASR => eAShr v (cI w amount)
  | SH_ROR => E3 (OFsh false) v v (cI w amount)
  end.
Definition ext_src (e : extk) : Z :=
  match e with UXTB | SXTB => 8 | UXTH | SXTH => 16 | UXTW | SXTW => 32 | UXTX | SXTX => 64 end.
Definition ext_signed (e : extk) : bool := match e with SXTB | SXTH | SXTW | SXTX => true | _ => false end.
(** main.cc:1022-1039 Extend. *)
Definition Extend (v : dexp) (w32 : bool) (e : extk) (lsl : Z) : option dexp :=
  let v := eTrunc (ext_src e) v in
  let x := if ext_signed e then eSExt (bits w32) v else eZExt (bits w32) v in
  Shift (bits w32) x SH_LSL lsl.

(** main.cc:1084-1108 IsTrue; [None]: assertion. *)
Definition IsTrue (cond : Z) : option dexp :=
  let sel (res : dexp) := Some (if Z.odd cond then eNot 1 res else res) in
  match cond with
  | 0 | 1 => sel (GetFlag ZF)
  | 2 | 3 => sel (GetFlag CF)
  | 4 | 5 => sel (GetFlag SF)
  | 6 | 7 => sel (GetFlag OF)
  | 8 | 9 => sel (eAnd (GetFlag CF) (eNot 1 (GetFlag ZF)))
  | 10 | 11 => sel (eCmp EQ (GetFlag SF) (GetFlag OF))
  | 12 | 13 => sel (eAnd (eNot 1 (GetFlag ZF)) (eCmp EQ (GetFlag SF) (GetFlag OF)))
  | 14 | 15 => Some (cI 1 1)
  | _ => None
  end.

(** main.cc:1128-1219 Addr for an element type of [k] bytes ([byte]: the type is
    i8): statements and the resulting pointer. [None]: assertion. *)
Definition AddrOff (k : Z) (byte : bool) (base : xr) (off : dexp) (lsl : Z) : dexp :=
  if (lsl =? 0) && negb byte then eToPtr (eAdd (GetGp base false) off)
  else aGep k (GetPtr base) off.
Definition Addr (k : Z) (byte : bool) (i : ainst) : option (list stm * dexp) :=
  let wb := SetGp (a_rn i) (eAdd (GetGp (a_rn i) false) (cI 64 (a_imm i))) in
  match a_mode i with
  | AM_SIMPLE => Some ([], GetPtr (a_rn i))
  | AM_OFF_IMM => Some ([], aGep 1 (GetPtr (a_rn i)) (cI 64 (a_off i)))
  | AM_OFF_REG => Some ([], AddrOff k byte (a_rn i) (GetGp (a_rm i) false) (a_amt i))
  | AM_OFF_EXT =>
    match a_ext i with
    | UXTW => Some ([], AddrOff k byte (a_rn i) (eZExt 64 (GetGp (a_rm i) true)) (a_lsl i))
    | SXTW => Some ([], AddrOff k byte (a_rn i) (eSExt 64 (GetGp (a_rm i) true)) (a_lsl i))
    | _ => None
    end
  | AM_PRE => Some (wb, GetPtr (a_rn i))
  | AM_POST => Some (SLet 40 (GetPtr (a_rn i)) :: wb, vX 40)
  | AM_LITERAL => Some ([], eToPtr (ELeaf (DPc (a_off i))))
  end.

(** main.cc:1221-1224 ones; only used below 64 bits or with truncation. *)
Definition ones (n : Z) : Z := if 64 <=? n then 2^64 - 1 else 2^n - 1.
(** main.cc:1233-1237 Extract, 1243-1248 MoveField. *)
Definition Extract (v : dexp) (w lsb width : Z) : dexp := eAnd (eLShr v (cI w lsb)) (cI w (ones width)).
Definition MoveField (v : dexp) (w lsb width : Z) : dexp := eShl (eAnd v (cI w (ones width))) (cI w lsb).
(** main.cc:1252-1262 MulAddSub for operands of [n] bits. *)
Definition MulAddSub (base : dexp) (op : binop) (lhs rhs : dexp) (ext : castop) (n : Z) : dexp :=
  let x e := E1 (OCast ext (TInt (2 * n))) e in
  eBin op (x base) (eMul (x lhs) (x rhs)).

(** main.cc:1264-1289 LiftBinOp; [rhs] before inversion. *)
Definition LiftBinOp (i : ainst) (op : binop) (rhs : option dexp) (invert : bool) : option (list stm) :=
  let w := bits (a_w32 i) in
  match rhs with
  | None => None
  | Some rhs =>
    let code := [SLet 0 (GetGp (a_rn i) (a_w32 i)); SLet 1 (if invert then eNot w rhs else rhs);
                 SLet 2 (eBin op (vX 0) (vX 1))] ++ SetGp (a_rd i) (vX 2) in
    if a_flags i then
      match op with
      | Add => Some (code ++ FlagCalcAdd w (vX 2) (vX 0) (vX 1))
      | Sub => Some (code ++ FlagCalcSub w (vX 2) (vX 0) (vX 1))
      | And => Some (code ++ FlagCalcLogic w (vX 2))
      | _ => None
      end
    else Some code
  end.
Definition rhs_imm (i : ainst) : option dexp := Some (cI (bits (a_w32 i)) (a_imm i)).
Definition rhs_shift (i : ainst) : option dexp := Shift (bits (a_w32 i)) (GetGp (a_rm i) (a_w32 i)) (a_sh i) (a_amt i).
Definition rhs_ext (i : ainst) : option dexp := Extend (GetGp (a_rm i) (a_w32 i)) (a_w32 i) (a_ext i) (a_lsl i).

(** main.cc:1292-1306 LiftCCmp for integers. *)
Definition LiftCCmp (i : ainst) (rhs : dexp) (ccmn : bool) : option (list stm) :=
  let w := bits (a_w32 i) in
  match IsTrue (a_cond i) with
  | None => None
  | Some k =>
    let fl (r : areg) (b : Z) := SSet r (eSel (vX 2) (GetFlag r) (cI 1 (b2z (Z.testbit (a_nzcv i) b)))) in
    Some ([SLet 0 (GetGp (a_rn i) (a_w32 i)); SLet 1 rhs; SLet 2 k;
           SLet 3 (eBin (if ccmn then Add else Sub) (vX 0) (vX 1))] ++
          (if ccmn then FlagCalcAdd w (vX 3) (vX 0) (vX 1) else FlagCalcSub w (vX 3) (vX 0) (vX 1)) ++
          [fl SF 3; fl ZF 2; fl CF 1; fl OF 0])
  end.

(** main.cc:862-869 with LiftCCmp (1290-1303), fp = true. *)
Definition LiftFCCmp (i : ainst) : option (list stm) :=
  match IsTrue (a_cond i) with
  | None => None
  | Some k =>
    let t := facet_type (sc_facet (a_fsz i) true) in
    let fl (r : areg) (b : Z) := SSet r (eSel (vX 2) (GetFlag r) (cI 1 (b2z (Z.testbit (a_nzcv i) b)))) in
    Some ([SLet 0 (GetScalar (a_vn i) (a_fsz i) true); SLet 1 (GetScalar (a_vm i) (a_fsz i) true); SLet 2 k] ++
          A64SimdFp.FlagCalcFP t (vX 0) (vX 1) ++
          [fl SF 3; fl ZF 2; fl CF 1; fl OF 0])
  end.
(** The default case (main.cc:79-82), LiftSIMD (simd.cc:92-1331), and the scalar
    floating-point cases of main.cc. *)
Definition lift_vec (v : A64Simd.vinst) : A64Simd.vres :=
  match A64Simd.v_op v with
  | A64Simd.VI o => A64Simd.lift_int v o
  | A64Simd.VM o => A64SimdMem.lift_mem v o
  | A64Simd.VF o => A64SimdFp.lift_fp v o
  | A64Simd.VS o => A64SimdFp.lift_sfp v o
  end.

(** Conditional selects (main.cc:585-632). *)
Definition LiftSel (i : ainst) (on_true on_false : dexp) : option (list stm) :=
  match IsTrue (a_cond i) with
  | None => None
  | Some k => Some (SetGp (a_rd i) (eSel k on_true on_false))
  end.

(** main.cc:1340-1410 LiftLoadStore. Atomic orderings are not modelled (the memory
    of this model is sequential). *)
Definition mem_w (i : ainst) : Z := ext_src (a_mext i).
Definition LoadGpr (i : ainst) (x : nat) (rt : xr) (ptr : dexp) : option (list stm) :=
  match Extend (vX x) (a_w32 i) (a_mext i) 0 with
  | None => None
  | Some e => Some (SLoad x (TInt (mem_w i)) ptr :: SetGp rt e)
  end.
Definition oapp (a : list stm) (b : option (list stm)) : option (list stm) :=
  match b with None => None | Some b => Some (a ++ b) end.
Definition LiftLoadStore (i : ainst) : option (list stm) :=
  let k := mem_w i / 8 in
  match Addr k (k =? 1) i with
  | None => None
  | Some (pre, ptr) =>
    let p2 := aGep k (vX 4) (cI 64 1) in
    let st_ r p := [SStore (eTrunc (mem_w i) (GetGp r (a_w32 i))) p] in
    oapp (pre ++ [SLet 4 ptr])
    match a_op i with
    | A_LDP | A_LDXP =>
      match LoadGpr i 5 (a_rt2 i) p2, LoadGpr i 6 (a_rd i) (vX 4) with
      | Some a, Some b => Some (a ++ b)
      | _, _ => None
      end
    | A_LDR | A_LDXR => LoadGpr i 6 (a_rd i) (vX 4)
    | A_STP | A_STXP => Some (st_ (a_rt2 i) p2 ++ st_ (a_rd i) (vX 4))
    | A_STR | A_STXR => Some (st_ (a_rd i) (vX 4))
    | _ => None
    end
  end.
(** The same for SIMD&FP registers. *)
Definition LiftLoadStoreFP (i : ainst) : option (list stm) :=
  let f := sc_facet (a_fsz i) true in
  let k := facet_size f / 8 in
  match Addr k (k =? 1) i with
  | None => None
  | Some (pre, ptr) =>
    let p2 := aGep k (vX 4) (cI 64 1) in
    let ld x r p := SLoad x (facet_type f) p :: SetScalar r (vX x) in
    let st_ r p := [SStore (GetScalar r (a_fsz i) true) p] in
    oapp (pre ++ [SLet 4 ptr])
    match a_op i with
    | A_LDP_FP => Some (ld 5%nat (a_vt2 i) p2 ++ ld 6%nat (a_vd i) (vX 4))
    | A_LDR_FP => Some (ld 6%nat (a_vd i) (vX 4))
    | A_STP_FP => Some (st_ (a_vt2 i) p2 ++ st_ (a_vd i) (vX 4))
    | A_STR_FP => Some (st_ (a_vd i) (vX 4))
    | _ => None
    end
  end.

(** lifter-base.h:89-97. *)
Definition undef_flags : list stm :=
  if al_clobber cfg then [SSet OF (EUndef (TInt 1)); SSet SF (EUndef (TInt 1)); SSet ZF (EUndef (TInt 1)); SSet CF (EUndef (TInt 1))]
  else [].

(** main.cc:78-910: the code of one instruction after SetIP(inst.start()). The result
    says whether SetIP(inst.end()) follows ([true], main.cc:905-909), or the
    instruction has set the PC ([false]). [None]: assertion. *)
Definition go (l : option (list stm)) : option (option (bool * list stm)) :=
  match l with Some l => Some (Some (true, l)) | None => None end.
Definition jump (l : list stm) : option (option (bool * list stm)) := Some (Some (false, l)).
Definition unhandled : option (option (bool * list stm)) := Some None.

Definition lift_op (i : ainst) : option (option (bool * list stm)) :=
  let w32 := a_w32 i in
  let w := bits w32 in
  let rn := GetGp (a_rn i) w32 in
  let rm := GetGp (a_rm i) w32 in
  let set v := go (Some (SetGp (a_rd i) v)) in
  let oset v := go (match v with Some v => Some (SetGp (a_rd i) v) | None => None end) in
  let bin op rhs := go (LiftBinOp i op rhs false) in
  let binn op rhs := go (LiftBinOp i op rhs true) in
  let target off := trunc 64 (a_start i + off) in
  let sext_field field k :=
    let mask := cI w (- 2 ^ k) in
    go (Some ([SLet 0 field] ++ SetGp (a_rd i) (eSel (eCmp NE (eAnd (vX 0) mask) (cI w 0)) (eOr (vX 0) mask) (vX 0)))) in
  match a_op i with
  | A_ADR => set (ELeaf (DPc (a_off i)))
  | A_ADRP => set (eAdd (eAnd (ELeaf (DPc 0)) (cI 64 (-4096))) (cI 64 (a_off i)))
  | A_AND_IMM | A_TST_IMM => bin And (rhs_imm i)
  | A_ORR_IMM => bin Or (rhs_imm i)
  | A_EOR_IMM => bin Xor (rhs_imm i)
  | A_ADD_IMM | A_MOV_SP | A_CMN_IMM => bin Add (rhs_imm i)
  | A_SUB_IMM | A_CMP_IMM => bin Sub (rhs_imm i)
  | A_MOVK =>
    set (eOr (eAnd (GetGp (a_rd i) w32) (cI w (Z.lnot (65535 * 2 ^ a_lsl i)))) (cI w (a_imm i * 2 ^ a_lsl i)))
  | A_MOV_IMM => set (cI w (a_imm i))
  | A_ASR_IMM => oset (Shift w rn SH_ASR (a_imm i))
  | A_SBFIZ => sext_field (MoveField rn w (a_lsb i) (a_width i)) (a_lsb i + a_width i - 1)
  | A_SBFX => sext_field (Extract rn w (a_lsb i) (a_width i)) (a_width i - 1)
  | A_BFC => set (eAnd (GetGp (a_rd i) w32) (cI w (Z.lnot (ones (a_width i) * 2 ^ a_lsb i))))
  | A_BFI =>
    set (eOr (MoveField rn w (a_lsb i) (a_width i))
             (eAnd (GetGp (a_rd i) w32) (cI w (Z.lnot (ones (a_width i) * 2 ^ a_lsb i)))))
  | A_BFXIL =>
    set (eOr (Extract rn w (a_lsb i) (a_width i))
             (eAnd (GetGp (a_rd i) w32) (cI w (Z.lnot (ones (a_width i))))))
  | A_LSL_IMM => oset (Shift w rn SH_LSL (a_imm i))
  | A_LSR_IMM => oset (Shift w rn SH_LSR (a_imm i))
  | A_UBFIZ => set (MoveField rn w (a_lsb i) (a_width i))
  | A_UBFX => set (Extract rn w (a_lsb i) (a_width i))
  | A_EXTEND => oset (Extend rn w32 (a_ext i) 0)
  | A_EXTR =>
    let w2 := 2 * w in
    let long := eOr (eShl (eZExt w2 rn) (cI w2 w)) (eZExt w2 rm) in
    set (eTrunc w (eAnd (eLShr long (cI w2 (a_imm i))) (cI w2 (ones w))))
  | A_ROR_IMM => oset (Shift w rn SH_ROR (a_imm i))
  | A_BCOND =>
    match IsTrue (a_cond i) with
    | Some k => jump [SPcCond k (target (a_off i)) (a_end i)]
    | None => None
    end
  | A_SVC =>
    jump (SPcVal (cI 64 (a_end i)) :: match al_syscall cfg with Some f => [SCall f] | None => [] end)
  | A_HINT => go (Some [])
  | A_DMB => if a_imm i mod 4 =? 0 then None else go (Some [])
  | A_MSR_REG =>
    if a_imm i =? 0xde82 then go (Some [SSet TPIDR (GetGp (a_rd i) false)])
    else if a_imm i =? 0xda10 then
      let b r k := SSet r (eTrunc 1 (eLShr (vX 0) (cI 64 k))) in
      go (Some [SLet 0 (GetGp (a_rd i) false); b SF 31; b ZF 30; b CF 29; b OF 28])
    else if (a_imm i =? 0xda20) || (a_imm i =? 0xda21) then go (Some [])
    else unhandled
  | A_CFINV => go (Some [SSet CF (eNot 1 (GetFlag CF))])
  | A_SYS =>
    (* op1:CRn:CRm:op2 of DC ZVA; the memset length is an i32 constant in the code *)
    if a_imm i =? 0x1ba1 then
      go (Some [SMemset (eToPtr (eAnd (GetGp (a_rd i) false) (cI 64 (-64)))) (cI 8 0) (cI 64 64)])
    else unhandled
  | A_MRS =>
    if a_imm i =? 0xde82 then set (rG TPIDR I64)
    else if a_imm i =? 0xda10 then
      let b f k := eShl (eZExt 64 (GetFlag f)) (cI 64 k) in
      set (eOr (eOr (eOr (eOr (cI 64 0) (b SF 31)) (b ZF 30)) (b CF 29)) (b OF 28))
    else if (a_imm i =? 0xda20) || (a_imm i =? 0xda21) then set (cI 64 0)
    else if a_imm i =? 0xd807 then set (cI 64 4)
    else if a_imm i =? 0xc000 then set (cI 64 0xf0000)
    else unhandled
  | A_B => jump [SPcConst (target (a_off i))]
  | A_BR => jump [SPcVal (GetGp (a_rn i) false)]
  | A_BL | A_BLR =>
    jump (undef_flags ++ [SSet (GP 30) (ELeaf (DPc 4))] ++
          [match a_op i with A_BLR => SPcVal (GetGp (a_rn i) false) | _ => SPcConst (target (a_off i)) end] ++
          match al_call cfg with Some f => [SCall f; SPcCallret (a_end i)] | None => [] end)
  | A_RET =>
    jump (undef_flags ++ [SPcVal (GetGp (a_rn i) false)] ++ match al_call cfg with Some _ => [SRet] | None => [] end)
  | A_CBZ | A_CBNZ =>
    jump [SPcCond (eCmp (match a_op i with A_CBZ => EQ | _ => NE end) (GetGp (a_rd i) w32) (cI w 0)) (target (a_off i)) (a_end i)]
  | A_TBZ | A_TBNZ =>
    if negb (a_bit i <? w) then None else
    jump [SPcCond (eCmp (match a_op i with A_TBZ => EQ | _ => NE end)
                        (eAnd (GetGp (a_rd i) w32) (cI w (2 ^ a_bit i))) (cI w 0)) (target (a_off i)) (a_end i)]
  | A_UDIV =>
    let z := eCmp EQ (vX 1) (cI w 0) in
    go (Some ([SLet 0 rn; SLet 1 rm] ++
              SetGp (a_rd i) (eSel z (cI w 0) (eBin UDiv (vX 0) (eSel z (cI w 1) (vX 1))))))
  | A_SDIV =>
    let z := eCmp EQ (vX 1) (cI w 0) in
    let m := eAnd (eCmp EQ (vX 0) (cI w (- 2 ^ (w - 1)))) (eCmp EQ (vX 1) (cI w (-1))) in
    let safe := eSel m (cI w 1) (eSel z (cI w 1) (vX 1)) in
    go (Some ([SLet 0 rn; SLet 1 rm] ++
              SetGp (a_rd i) (eSel z (cI w 0) (eSel m (cI w (- 2 ^ (w - 1))) (eBin SDiv (vX 0) safe)))))
  | A_LSLV => set (eShl rn (eAnd rm (cI w (w - 1))))
  | A_LSRV => set (eLShr rn (eAnd rm (cI w (w - 1))))
  | A_ASRV => set (eAShr rn (eAnd rm (cI w (w - 1))))
  | A_RORV => set (E3 (OFsh false) rn rn (eAnd rm (cI w (w - 1))))
  | A_RBIT => set (E1 (OIntr1 Bitreverse) rn)
  | A_REV16 => set (E1 (OCast CBitCast (TInt w)) (E1 (OIntr1 Bswap) (E1 (OCast CBitCast (TVec (w / 16) (TInt 16))) rn)))
  | A_REV => set (E1 (OIntr1 Bswap) rn)
  | A_REV32 => set (E1 (OCast CBitCast (TInt w)) (E1 (OIntr1 Bswap) (E1 (OCast CBitCast (TVec (w / 32) (TInt 32))) rn)))
  | A_CLZ => set (E1 (OIntr1 (Ctlz false)) rn)
  | A_CLS =>
    set (eSub (E1 (OIntr1 (Ctlz false)) (eXor rn (eAShr rn (cI w (w - 1))))) (cI w 1))
  | A_AND_SHIFTED | A_TST_SHIFTED => bin And (rhs_shift i)
  | A_BIC => binn And (rhs_shift i)
  | A_ORR_SHIFTED => bin Or (rhs_shift i)
  | A_ORN | A_MVN => binn Or (rhs_shift i)
  | A_MOV_REG => set rm
  | A_EOR_SHIFTED => bin Xor (rhs_shift i)
  | A_EON => binn Xor (rhs_shift i)
  | A_ADD_SHIFTED | A_CMN_SHIFTED => bin Add (rhs_shift i)
  | A_SUB_SHIFTED | A_NEG | A_CMP_SHIFTED => bin Sub (rhs_shift i)
  | A_ADD_EXT | A_CMN_EXT => bin Add (rhs_ext i)
  | A_SUB_EXT | A_CMP_EXT => bin Sub (rhs_ext i)
  | A_ADC | A_SBC | A_NGC =>
    let add := match a_op i with A_ADC => true | _ => false end in
    let cf := GetFlag CF in
    go (Some ([SLet 0 rn; SLet 1 (eAdd rm (eZExt w (if add then cf else eNot 1 cf)));
               SLet 2 (eBin (if add then Add else Sub) (vX 0) (vX 1))] ++ SetGp (a_rd i) (vX 2) ++
              (if a_flags i then (if add then FlagCalcAdd w (vX 2) (vX 0) (vX 1) else FlagCalcSub w (vX 2) (vX 0) (vX 1)) else [])))
  | A_CCMN_REG => go (LiftCCmp i rm true)
  | A_CCMP_REG => go (LiftCCmp i rm false)
  | A_CCMN_IMM => go (LiftCCmp i (cI w (a_imm i)) true)
  | A_CCMP_IMM => go (LiftCCmp i (cI w (a_imm i)) false)
  | A_CSEL => go (LiftSel i rn rm)
  | A_CSINC => go (LiftSel i rn (eAdd rm (cI w 1)))
  | A_CINC => go (LiftSel i (eAdd rn (cI w 1)) rn)
  | A_CSET => oset (match IsTrue (a_cond i) with Some k => Some (eZExt w k) | None => None end)
  | A_CSINV => go (LiftSel i rn (eNot w rm))
  | A_CINV => go (LiftSel i (eNot w rn) rn)
  | A_CSETM => go (LiftSel i (cI w (-1)) (cI w 0))
  | A_CSNEG => go (LiftSel i rn (eSub (cI w 0) rm))
  | A_CNEG => go (LiftSel i (eSub (cI w 0) rn) rn)
  | A_MUL => set (eMul rn rm)
  | A_MADD => set (eAdd (GetGp (a_ra i) w32) (eMul rn rm))
  | A_MSUB | A_MNEG => set (eSub (GetGp (a_ra i) w32) (eMul rn rm))
  | A_SMADDL | A_SMULL => set (MulAddSub (GetGp (a_ra i) false) Add (GetGp (a_rn i) true) (GetGp (a_rm i) true) CSExt 32)
  | A_SMSUBL | A_SMNEGL => set (MulAddSub (GetGp (a_ra i) false) Sub (GetGp (a_rn i) true) (GetGp (a_rm i) true) CSExt 32)
  | A_SMULH =>
    set (eTrunc 64 (eLShr (MulAddSub (cI 64 0) Add (GetGp (a_rn i) false) (GetGp (a_rm i) false) CSExt 64) (cI 128 64)))
  | A_UMADDL | A_UMULL => set (MulAddSub (GetGp (a_ra i) false) Add (GetGp (a_rn i) true) (GetGp (a_rm i) true) CZExt 32)
  | A_UMSUBL | A_UMNEGL => set (MulAddSub (GetGp (a_ra i) false) Sub (GetGp (a_rn i) true) (GetGp (a_rm i) true) CZExt 32)
  | A_UMULH =>
    set (eTrunc 64 (eLShr (MulAddSub (cI 64 0) Add (GetGp (a_rn i) false) (GetGp (a_rm i) false) CZExt 64) (cI 128 64)))
  | A_LDXR | A_LDXP | A_LDP | A_STP | A_LDR | A_STR => go (LiftLoadStore i)
  | A_STXR | A_STXP =>
    go (match LiftLoadStore i with Some l => Some (l ++ SetGp (a_rs i) (cI w 0)) | None => None end)
  | A_LDP_FP | A_STP_FP | A_LDR_FP | A_STR_FP => go (LiftLoadStoreFP i)
  | A_FCSEL =>
    go (match IsTrue (a_cond i) with
        | Some k => Some (SetScalar (a_vd i) (eSel k (GetScalar (a_vn i) (a_fsz i) true) (GetScalar (a_vm i) (a_fsz i) true)))
        | None => None
        end)
  | A_FMOV_VEC2GPR => set (GetScalar (a_vn i) (a_fsz i) false)
  | A_FMOV_GPR2VEC => go (Some (SetScalar (a_vd i) rn))
  | A_FMOV_TOP2GPR => set (E1 (OExtract 1) (rG (VEC (a_vn i)) V2I64))
  | A_FMOV_GPR2TOP => go (Some (SetScalar (a_vd i) (E2 (OInsert 1) (rG (VEC (a_vd i)) V2I64) (GetGp (a_rn i) false))))
  | A_FMOV_REG => go (Some (SetScalar (a_vd i) (GetScalar (a_vn i) (a_fsz i) true)))
  | A_FCCMP => go (LiftFCCmp i)
  | A_VEC v => match lift_vec v with Some (Some l) => go (Some l) | Some None => unhandled | None => None end
  | A_OTHER => unhandled
  end.

(** main.cc:51-76 and 905-910: the whole of Lift. [false]: the instruction is not
    supported, and the PC is left at its absolute address (main.cc:84-86). *)
Definition lift_a64 (i : ainst) : option (bool * list stm) :=
  match lift_op i with
  | None => None
  | Some None => Some (false, [SPcConst (a_start i); SPcVal (cI 64 (a_start i))])
  | Some (Some (true, l)) => Some (true, SPcConst (a_start i) :: l ++ [SPcConst (a_end i)])
  | Some (Some (false, l)) => Some (true, SPcConst (a_start i) :: l)
  end.
End Lift.
