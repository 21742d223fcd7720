(** Model of the RV64 instruction lifter, /repo/src/rv64/lifter.cc. *)

From Coq Require Import ZArith Lia List Bool.
From Verif Require Import Bits IR Facet Dsl.
Import ListNotations.
Open Scope Z_scope.

(** Mnemonics of frvdec with a case in lifter.cc:384-646; [R_OTHER] stands for
    every other mnemonic. *)
Inductive rvmnem :=
| R_JAL | R_JALR | R_BEQ | R_BNE | R_BLT | R_BLTU | R_BGE | R_BGEU | R_ECALL
| R_LUI | R_AUIPC
| R_LB | R_LBU | R_LH | R_LHU | R_LW | R_LWU | R_LD | R_SB | R_SH | R_SW | R_SD
| R_ADDI | R_ADD | R_ADDIW | R_ADDW | R_SUB | R_SUBW | R_ANDI | R_AND | R_ORI | R_OR | R_XORI | R_XOR
| R_SLLI | R_SLL | R_SLLIW | R_SLLW | R_SRLI | R_SRL | R_SRLIW | R_SRLW | R_SRAI | R_SRA | R_SRAIW | R_SRAW
| R_SLT | R_SLTI | R_SLTU | R_SLTIU
| R_MUL | R_MULW | R_MULH | R_MULHSU | R_MULHU
| R_DIV | R_DIVU | R_DIVW | R_DIVUW | R_REM | R_REMU | R_REMW | R_REMUW
| R_CSRRW | R_CSRRS | R_CSRRC | R_CSRRWI | R_CSRRSI | R_CSRRCI
| R_LRW | R_LRD | R_SCW | R_SCD | R_FENCE
| R_AMOSWAPW | R_AMOSWAPD | R_AMOADDW | R_AMOADDD | R_AMOANDW | R_AMOANDD | R_AMOORW | R_AMOORD
| R_AMOXORW | R_AMOXORD | R_AMOMAXW | R_AMOMAXD | R_AMOMAXUW | R_AMOMAXUD | R_AMOMINW | R_AMOMIND
| R_AMOMINUW | R_AMOMINUD
| R_FLW | R_FSW | R_FCVTSL | R_FCVTSW | R_FCVTSLU | R_FCVTSWU | R_FCVTLS | R_FCVTWS | R_FCVTLUS | R_FCVTWUS
| R_FMVXW | R_FMVWX | R_FADDS | R_FSUBS | R_FMULS | R_FDIVS | R_FMINS | R_FMAXS
| R_FMADDS | R_FMSUBS | R_FNMSUBS | R_FNMADDS | R_FSQRTS | R_FSGNJS | R_FSGNJNS | R_FSGNJXS
| R_FEQS | R_FLTS | R_FLES | R_FCLASSS
| R_FLD | R_FSD | R_FCVTDL | R_FCVTDW | R_FCVTDLU | R_FCVTDWU | R_FCVTLD | R_FCVTWD | R_FCVTLUD | R_FCVTWUD
| R_FMVXD | R_FMVDX | R_FADDD | R_FSUBD | R_FMULD | R_FDIVD | R_FMIND | R_FMAXD
| R_FMADDD | R_FMSUBD | R_FNMSUBD | R_FNMADDD | R_FSQRTD | R_FSGNJD | R_FSGNJND | R_FSGNJXD
| R_FEQD | R_FLTD | R_FLED | R_FCVTSD | R_FCVTDS | R_FCLASSD
| R_ADDUW | R_SH1ADD | R_SH2ADD | R_SH3ADD | R_SH1ADDUW | R_SH2ADDUW | R_SH3ADDUW | R_SLLIUW
| R_ANDN | R_CLZ | R_CLZW | R_CPOP | R_CPOPW | R_CTZ | R_CTZW | R_MAX | R_MAXU | R_MIN | R_MINU
| R_ORCB | R_ORN | R_REV8 | R_ROL | R_ROLW | R_ROR | R_RORW | R_RORI | R_RORIW
| R_SEXTB | R_SEXTH | R_XNOR | R_ZEXTH | R_CLMUL | R_CLMULH | R_CLMULR
| R_BCLR | R_BCLRI | R_BEXT | R_BEXTI | R_BINV | R_BINVI | R_BSET | R_BSETI
| R_OTHER.

(** FrvInst (frvdec, not in the checkout) plus the instruction's address and
    length from Instr (instr.h). *)
Record rvinst := RvInst {
  r_mn : rvmnem; r_rd : Z; r_rs1 : Z; r_rs2 : Z; r_rs3 : Z; r_imm : Z; r_misc : Z;
  r_start : Z; r_len : Z;
}.
(** FRV_REG_INV marks an absent register operand; any value outside 0..31. *)
Definition FRV_REG_INV : Z := 128.

(** What the lifter knows at lift time about a register value:
    llvm::isa<ConstantInt>, another llvm::Constant, or no constant
    (lifter.cc:68-75). *)
Inductive konst := KNone | KInt (z : Z) | KExpr.

(** Configuration read by the lifter: call_function, syscall_implementation
    (config.h:82-96). Functions are identified by numbers. *)
Record lcfg := LCfg { l_call : option Z; l_syscall : option Z; l_tail : option Z }.

(** instr.h end(): uint64_t arithmetic. *)
Definition r_end (i : rvinst) : Z := trunc 64 (r_start i + r_len i).

Section Lift.
Variable c : cenv.
Variable cfg : lcfg.
Variable kc : areg -> konst.

(** lifter.cc:45-49 LoadGp. *)
Definition LoadGp (reg : Z) (f : facet) : dexp :=
  if reg =? 0 then EConst (facet_type f) 0 else rG (GP reg) f.
(** lifter.cc:50-52 LoadUw. *)
Definition LoadUw (reg : Z) : dexp := eZExt 64 (LoadGp reg I32).
(** lifter.cc:53-55 LoadFp. *)
Definition LoadFp (reg : Z) (f : facet) : dexp := rG (VEC reg) f.
(** lifter.cc:56-62 StoreGp. *)
Definition StoreGp (reg : Z) (v : dexp) : list stm :=
  if reg =? 0 then [SLet 63 v] else [SSet (GP reg) (eSExt 64 v)].
(** lifter.cc:63-65 StoreFp. *)
Definition StoreFp (reg : Z) (v : dexp) : list stm := [SSet (VEC reg) v].

(** lifter-base.cc:34-44 AddrConst. *)
Definition AddrConst (a : Z) : dexp :=
  if trunc 64 a =? 0 then EConst TPtr 0 else
  match c_gbase c with
  | Some b => E2 OGep (EConst TPtr b) (cI 64 (a - c_gbase_addr c))
  | None => E1 (OCast CIntToPtr TPtr) (cI 64 a)
  end.

(** lifter.cc:66-80 Addr. *)
Definition Addr (i : rvinst) : dexp :=
  match (if r_rs1 i =? 0 then KInt 0 else kc (GP (r_rs1 i))) with
  | KInt z => AddrConst (z + r_imm i)
  | KExpr => E1 (OCast CIntToPtr TPtr) (eAdd (LoadGp (r_rs1 i) I64) (cI 64 (r_imm i)))
  | KNone => if r_imm i =? 0 then LoadGp (r_rs1 i) PTR
             else E2 OGep (LoadGp (r_rs1 i) PTR) (cI 64 (r_imm i))
  end.

(** lifter.cc:82-86. *)
Definition LiftBinOpR (i : rvinst) (op : binop) (f : facet) : list stm :=
  StoreGp (r_rd i) (eBin op (LoadGp (r_rs1 i) f) (LoadGp (r_rs2 i) f)).
(** lifter.cc:87-91. *)
Definition LiftBinOpI (i : rvinst) (op : binop) (f : facet) : list stm :=
  StoreGp (r_rd i) (eBin op (LoadGp (r_rs1 i) f) (cI (facet_size f) (r_imm i))).
(** lifter.cc:92-98; [width] is the type width of the shift operand. *)
Definition LiftShift (i : rvinst) (op : binop) (width : Z) (shiftop : dexp) : list stm :=
  StoreGp (r_rd i) (eBin op (LoadGp (r_rs1 i) (facet_In width)) (eAnd shiftop (cI width (width - 1)))).
(** lifter.cc:99-106. *)
Definition LiftMulh (i : rvinst) (ext1 ext2 : castop) : list stm :=
  let rs1 := E1 (OCast ext1 (TInt 128)) (LoadGp (r_rs1 i) I64) in
  let rs2 := E1 (OCast ext2 (TInt 128)) (LoadGp (r_rs2 i) I64) in
  StoreGp (r_rd i) (eTrunc 64 (eLShr (eMul rs1 rs2) (cI 128 64))).
(** lifter.cc:107-111. *)
Definition LiftLoad (i : rvinst) (ext : castop) (f : facet) : list stm :=
  SLoad 0 (facet_type f) (Addr i) :: StoreGp (r_rd i) (E1 (OCast ext (TInt 64)) (vX 0)).
(** lifter.cc:112-115. *)
Definition LiftLoadFp (i : rvinst) (f : facet) : list stm :=
  SLoad 0 (facet_type f) (Addr i) :: StoreFp (r_rd i) (vX 0).
(** lifter.cc:116-118. *)
Definition LiftStore (i : rvinst) (f : facet) : list stm :=
  [SStore (LoadGp (r_rs2 i) f) (Addr i)].
(** lifter.cc:119-121. *)
Definition LiftStoreFp (i : rvinst) (f : facet) : list stm :=
  [SStore (LoadFp (r_rs2 i) f) (Addr i)].
(** lifter.cc:122-126. *)
Definition LiftBranch (i : rvinst) (p : icmp) : list stm :=
  [SPcCond (eCmp p (LoadGp (r_rs1 i) I64) (LoadGp (r_rs2 i) I64))
           (trunc 64 (r_start i + r_imm i)) (r_end i)].
(** lifter.cc:127-172. *)
Definition LiftDivRem (i : rvinst) (op : binop) (f : facet) : list stm :=
  let w := facet_size f in
  let zero := cI w 0 in
  let minusone := cI w (-1) in
  let dividend := vX 0 in
  let divisor := vX 1 in
  let is_zero := eCmp EQ divisor zero in
  let is_minusone := eCmp EQ divisor minusone in
  let is_spc := match op with SDiv | SRem => eOr is_zero is_minusone | _ => is_zero end in
  let spcRes := match op with
                | UDiv => minusone
                | URem => dividend
                | SDiv => eSel is_minusone dividend minusone
                | _ => eSel is_minusone zero dividend
                end in
  [SLet 0 (LoadGp (r_rs1 i) f); SLet 1 (LoadGp (r_rs2 i) f);
   SLet 2 (EIf is_spc spcRes (eBin op dividend divisor))]
  ++ StoreGp (r_rd i) (vX 2).
(** lifter.cc:174-187; [None] is the failing assertion on the ordering. *)
Definition LiftAmo (i : rvinst) (op : rmwop) (f : facet) : option (list stm) :=
  if (0 <=? r_imm i) && (r_imm i <=? 3) then
    Some (SRmw 0 op (LoadGp (r_rs1 i) PTR) (LoadGp (r_rs2 i) f) :: StoreGp (r_rd i) (vX 0))
  else None.
(** lifter.cc:189-194. *)
Definition LiftFpArith (i : rvinst) (op : fpname) (f : facet) : option (list stm) :=
  if r_misc i =? 7 then
    Some (StoreFp (r_rd i) (E2 (OFp2 op (facet_type f)) (LoadFp (r_rs1 i) f) (LoadFp (r_rs2 i) f)))
  else None.
(** lifter.cc:195-202. *)
Definition LiftFcvtIToF (i : rvinst) (df sf : facet) (cast : fpname) : list stm :=
  StoreFp (r_rd i) (E1 (OFp1 cast (facet_type df)) (LoadGp (r_rs1 i) sf)).
(** lifter.cc:203-220. *)
Definition LiftFcvtFToI (i : rvinst) (df sf : facet) (cast : fpname) : option (list stm) :=
  let v := LoadFp (r_rs1 i) sf in
  let fin v := Some (StoreGp (r_rd i) (E1 (OFp1 cast (facet_type df)) v)) in
  let m := r_misc i in
  if m =? 1 then fin v
  else if m =? 2 then fin (E1 (OFp1 FFloor (facet_type sf)) v)
  else if m =? 3 then fin (E1 (OFp1 FCeil (facet_type sf)) v)
  else if m =? 4 then fin (E1 (OFp1 FRound (facet_type sf)) v)
  else if m =? 7 then fin v
  else None.
(** lifter.cc:227-230. *)
Definition LiftFcmp (i : rvinst) (p : Z) (f : facet) : list stm :=
  StoreGp (r_rd i) (eZExt 64 (E2 (OFp2 (FCmp p) (TInt 1)) (LoadFp (r_rs1 i) f) (LoadFp (r_rs2 i) f))).
Definition FCMP_OEQ := 1. Definition FCMP_OLT := 4. Definition FCMP_OLE := 5.
(** lifter.cc:231-243. *)
Definition LiftFsgn (i : rvinst) (f : facet) (keep zero : bool) : list stm :=
  let sz := match f with F32 => 32 | _ => 64 end in
  let abs0 := eBitCast (TInt sz) (LoadFp (r_rs1 i) f) in
  let sign0 := eBitCast (TInt sz) (LoadFp (r_rs2 i) f) in
  let abs1 := if negb keep && zero then eAnd abs0 (cI sz (2^(sz-1) - 1))
              else if negb keep && negb zero then eOr abs0 (cI sz (2^(sz-1)))
              else abs0 in
  let sign1 := eAnd sign0 (cI sz (2^(sz-1))) in
  StoreFp (r_rd i) (eBitCast (facet_type f) (eXor abs1 sign1)).
(** lifter.cc:244-247. *)
Definition LiftFminmax (i : rvinst) (id : fpname) (f : facet) : list stm :=
  StoreFp (r_rd i) (E2 (OFp2 id (facet_type f)) (LoadFp (r_rs1 i) f) (LoadFp (r_rs2 i) f)).
(** lifter.cc:248-281. *)
Definition LiftFclass (i : rvinst) (f : facet) : list stm :=
  let sz := facet_size f in
  let expmsk := if sz =? 32 then 0x7f800000 else 0x7ff0000000000000 in
  let mantmsk := if sz =? 32 then 0x007fffff else 0x000fffffffffffff in
  let nanidx := if sz =? 32 then 22 else 51 in
  let v := LoadFp (r_rs1 i) f in
  let sign := eAnd v (cI sz (2^(sz-1))) in
  let exp := eAnd v (cI sz expmsk) in
  let expzero := eCmp EQ exp (cI sz 0) in
  let expmax := eCmp EQ exp (cI sz expmsk) in
  let mant := eAnd v (cI sz mantmsk) in
  let mantnotzero := eCmp NE mant (cI sz 0) in
  let mze := eOr (eZExt sz mantnotzero) (cI sz 4) in
  let mme := eOr (eZExt sz expmax) (cI sz 6) in
  let res := eSel expzero mze mme in
  let resneg := eXor res (cI sz 7) in
  let res2 := eSel (eCmp EQ sign (cI sz 0)) res resneg in
  let signaling := eOr (eLShr mant (cI sz nanidx)) (cI sz 8) in
  let isnan := eAnd expmax mantnotzero in
  StoreGp (r_rd i) (eSel isnan signaling res2).
(** lifter.cc:282-289. *)
Definition LiftFmadd (i : rvinst) (sub negprod : bool) (f : facet) : list stm :=
  let t := facet_type f in
  let prod := E2 (OFp2 FMul t) (LoadFp (r_rs1 i) f) (LoadFp (r_rs2 i) f) in
  let op := if negprod then E1 (OFp1 FNeg t) prod else prod in
  StoreFp (r_rd i) (E2 (OFp2 (if sub then FSub else FAdd) t) op (LoadFp (r_rs3 i) f)).
(** lifter.cc:290-294. *)
Definition LiftShNAdd (i : rvinst) (n : Z) (word : bool) : list stm :=
  let shifted := eShl (if word then LoadUw (r_rs1 i) else LoadGp (r_rs1 i) I64) (cI 64 n) in
  StoreGp (r_rd i) (eAdd (LoadGp (r_rs2 i) I64) shifted).
(** lifter.cc:295-302 LiftUnaryIntrinsic and LiftCountZerosIntrinsic. *)
Definition LiftIntr1 (i : rvinst) (id : intr1) (f : facet) : list stm :=
  StoreGp (r_rd i) (E1 (OIntr1 id) (LoadGp (r_rs1 i) f)).
(** lifter.cc:303-306. *)
Definition LiftIntr2 (i : rvinst) (id : intr2) (f : facet) : list stm :=
  StoreGp (r_rd i) (E2 (OIntr2 id) (LoadGp (r_rs1 i) f) (LoadGp (r_rs2 i) f)).
(** lifter.cc:307-311. *)
Definition LiftRotate (i : rvinst) (left : bool) (shiftop : dexp) (word : bool) : list stm :=
  let rs1 := LoadGp (r_rs1 i) (if word then I32 else I64) in
  StoreGp (r_rd i) (eSExt 64 (E3 (OFsh left) rs1 rs1 shiftop)).
(** lifter.cc:312-320. *)
Definition LiftBitInstruction (i : rvinst) (op : binop) (index : dexp) (invert : bool) : list stm :=
  let rhs := eShl (cI 64 1) (eAnd index (cI 64 63)) in
  let rhs := if invert then eNot 64 rhs else rhs in
  StoreGp (r_rd i) (eBin op (LoadGp (r_rs1 i) I64) rhs).
(** lifter.cc:321-325. *)
Definition LiftBitExtract (i : rvinst) (index : dexp) : list stm :=
  StoreGp (r_rd i) (eAnd (eLShr (LoadGp (r_rs1 i) I64) (eAnd index (cI 64 63))) (cI 64 1)).
(** lifter.cc:326-333. *)
Definition LiftOrcb (i : rvinst) : list stm :=
  let t := TVec 8 (TInt 8) in
  let rs1 := eBitCast t (LoadGp (r_rs1 i) I64) in
  let zeroes := EConst t 0 in
  let res := E1 (OCast CSExt t) (eCmp NE rs1 zeroes) in
  StoreGp (r_rd i) (eBitCast (TInt 64) res).
(** lifter.cc:334-355. *)
Inductive clmul := CLMUL | CLMULH | CLMULR.
Definition clmul_step (k : clmul) (i : Z) (res : dexp) : dexp :=
  let rs1 := vX 0 in let rs2 := vX 1 in
  let cond := eCmp EQ (eAnd (cI 64 (2^i)) rs2) (cI 64 0) in
  let x := match k with
           | CLMUL => eShl rs1 (cI 64 i)
           | CLMULH => eLShr rs1 (cI 64 (64 - i))
           | CLMULR => eLShr rs1 (cI 64 (63 - i))
           end in
  eXor res (eSel cond (cI 64 0) x).
Fixpoint clmul_loop (k : clmul) (i : Z) (n : nat) (res : dexp) : dexp :=
  match n with
  | O => res
  | S n' => clmul_loop k (i + 1) n' (clmul_step k i res)
  end.
Definition LiftCLMul (i : rvinst) (k : clmul) : list stm :=
  let start_i := match k with CLMULH => 1 | _ => 0 end in
  let end_i := match k with CLMULR => 63 | _ => 64 end in
  [SLet 0 (LoadGp (r_rs1 i) I64); SLet 1 (LoadGp (r_rs2 i) I64)]
  ++ StoreGp (r_rd i) (clmul_loop k start_i (Z.to_nat (end_i - start_i)) (cI 64 0)).

Definition plain (l : list stm) (i : rvinst) : option (bool * list stm) :=
  Some (true, l ++ [SPcConst (r_end i)]).
Definition plain_opt (l : option (list stm)) (i : rvinst) : option (bool * list stm) :=
  match l with Some l => plain l i | None => None end.
Definition unhandled (i : rvinst) : option (bool * list stm) :=
  Some (false, [SPcVal (cI 64 (r_start i))]).

(** lifter.cc:390-411 JAL/JALR. *)
Definition LiftJal (i : rvinst) : list stm :=
  let rdl := (r_rd i =? 1) || (r_rd i =? 5) in
  let rs1l := (r_rs1 i =? 1) || (r_rs1 i =? 5) in
  [SLet 0 (ELeaf (DPc (r_len i)))]
  ++ (if negb (r_rs1 i =? FRV_REG_INV)
      then [SPcVal (eAdd (LoadGp (r_rs1 i) I64) (cI 64 (r_imm i)))]
      else [SPcConst (trunc 64 (r_start i + r_imm i))])
  ++ StoreGp (r_rd i) (vX 0)
  ++ match l_call cfg with
     | None => []
     | Some f =>
       if negb rdl && rs1l then [SRet]
       else if rdl && (negb rs1l || (r_rs1 i =? r_rd i)) then [SCall f; SPcCallret (r_end i)]
       else []
     end.

(** lifter.cc:384-649: the big switch. The result is the return value of Lift
    and the statements issued after SetIP(inst.start()); [None] is a violated
    assertion. *)
Definition lift_mnem (i : rvinst) : option (bool * list stm) :=
  let rd := r_rd i in let rs1 := r_rs1 i in let rs2 := r_rs2 i in let imm := r_imm i in
  match r_mn i with
  | R_OTHER => unhandled i
  | R_JAL | R_JALR => Some (true, LiftJal i)
  | R_BEQ => Some (true, LiftBranch i EQ)
  | R_BNE => Some (true, LiftBranch i NE)
  | R_BLT => Some (true, LiftBranch i SLT)
  | R_BLTU => Some (true, LiftBranch i ULT)
  | R_BGE => Some (true, LiftBranch i SGE)
  | R_BGEU => Some (true, LiftBranch i UGE)
  | R_ECALL =>
    if imm =? 0 then
      Some (true, SPcVal (cI 64 (r_end i)) ::
                  match l_syscall cfg with Some f => [SCall f] | None => [] end)
    else Some (false, [SPcVal (cI 64 (r_start i))])
  | R_LUI => plain (StoreGp rd (cI 64 imm)) i
  | R_AUIPC => plain (StoreGp rd (ELeaf (DPc imm))) i
  | R_LB => plain (LiftLoad i CSExt I8) i
  | R_LBU => plain (LiftLoad i CZExt I8) i
  | R_LH => plain (LiftLoad i CSExt I16) i
  | R_LHU => plain (LiftLoad i CZExt I16) i
  | R_LW => plain (LiftLoad i CSExt I32) i
  | R_LWU => plain (LiftLoad i CZExt I32) i
  | R_LD => plain (LiftLoad i CSExt I64) i
  | R_SB => plain (LiftStore i I8) i
  | R_SH => plain (LiftStore i I16) i
  | R_SW => plain (LiftStore i I32) i
  | R_SD => plain (LiftStore i I64) i
  | R_ADDI => plain (LiftBinOpI i Add I64) i
  | R_ADD => plain (LiftBinOpR i Add I64) i
  | R_ADDIW => plain (LiftBinOpI i Add I32) i
  | R_ADDW => plain (LiftBinOpR i Add I32) i
  | R_SUB => plain (LiftBinOpR i Sub I64) i
  | R_SUBW => plain (LiftBinOpR i Sub I32) i
  | R_ANDI => plain (LiftBinOpI i And I64) i
  | R_AND => plain (LiftBinOpR i And I64) i
  | R_ORI => plain (LiftBinOpI i Or I64) i
  | R_OR => plain (LiftBinOpR i Or I64) i
  | R_XORI => plain (LiftBinOpI i Xor I64) i
  | R_XOR => plain (LiftBinOpR i Xor I64) i
  | R_SLLI => plain (LiftShift i Shl 64 (cI 64 imm)) i
  | R_SLL => plain (LiftShift i Shl 64 (LoadGp rs2 I64)) i
  | R_SLLIW => plain (LiftShift i Shl 32 (cI 32 imm)) i
  | R_SLLW => plain (LiftShift i Shl 32 (LoadGp rs2 I32)) i
  | R_SRLI => plain (LiftShift i LShr 64 (cI 64 imm)) i
  | R_SRL => plain (LiftShift i LShr 64 (LoadGp rs2 I64)) i
  | R_SRLIW => plain (LiftShift i LShr 32 (cI 32 imm)) i
  | R_SRLW => plain (LiftShift i LShr 32 (LoadGp rs2 I32)) i
  | R_SRAI => plain (LiftShift i AShr 64 (cI 64 imm)) i
  | R_SRA => plain (LiftShift i AShr 64 (LoadGp rs2 I64)) i
  | R_SRAIW => plain (LiftShift i AShr 32 (cI 32 imm)) i
  | R_SRAW => plain (LiftShift i AShr 32 (LoadGp rs2 I32)) i
  | R_SLT => plain (StoreGp rd (eZExt 64 (eCmp SLT (LoadGp rs1 I64) (LoadGp rs2 I64)))) i
  | R_SLTI => plain (StoreGp rd (eZExt 64 (eCmp SLT (LoadGp rs1 I64) (cI 64 imm)))) i
  | R_SLTU => plain (StoreGp rd (eZExt 64 (eCmp ULT (LoadGp rs1 I64) (LoadGp rs2 I64)))) i
  | R_SLTIU => plain (StoreGp rd (eZExt 64 (eCmp ULT (LoadGp rs1 I64) (cI 64 imm)))) i
  | R_MUL => plain (LiftBinOpR i Mul I64) i
  | R_MULW => plain (LiftBinOpR i Mul I32) i
  | R_MULH => plain (LiftMulh i CSExt CSExt) i
  | R_MULHSU => plain (LiftMulh i CSExt CZExt) i
  | R_MULHU => plain (LiftMulh i CZExt CZExt) i
  | R_DIV => plain (LiftDivRem i SDiv I64) i
  | R_DIVU => plain (LiftDivRem i UDiv I64) i
  | R_DIVW => plain (LiftDivRem i SDiv I32) i
  | R_DIVUW => plain (LiftDivRem i UDiv I32) i
  | R_REM => plain (LiftDivRem i SRem I64) i
  | R_REMU => plain (LiftDivRem i URem I64) i
  | R_REMW => plain (LiftDivRem i SRem I32) i
  | R_REMUW => plain (LiftDivRem i URem I32) i
  | R_CSRRW | R_CSRRS | R_CSRRC | R_CSRRWI | R_CSRRSI | R_CSRRCI =>
    if (imm =? 1) || (imm =? 2) || (imm =? 3) then plain (StoreGp rd (cI 32 0)) i else unhandled i
  | R_LRW => plain (SLoad 0 (TInt 32) (LoadGp rs1 PTR) :: StoreGp rd (vX 0)) i
  | R_LRD => plain (SLoad 0 (TInt 64) (LoadGp rs1 PTR) :: StoreGp rd (vX 0)) i
  | R_SCW => plain (StoreGp rd (cI 32 0) ++ [SStore (LoadGp rs2 I32) (LoadGp rs1 PTR)]) i
  | R_SCD => plain (StoreGp rd (cI 32 0) ++ [SStore (LoadGp rs2 I64) (LoadGp rs1 PTR)]) i
  | R_FENCE => plain [] i
  | R_AMOSWAPW => plain_opt (LiftAmo i RXchg I32) i
  | R_AMOSWAPD => plain_opt (LiftAmo i RXchg I64) i
  | R_AMOADDW => plain_opt (LiftAmo i RAdd I32) i
  | R_AMOADDD => plain_opt (LiftAmo i RAdd I64) i
  | R_AMOANDW => plain_opt (LiftAmo i RAnd I32) i
  | R_AMOANDD => plain_opt (LiftAmo i RAnd I64) i
  | R_AMOORW => plain_opt (LiftAmo i ROr I32) i
  | R_AMOORD => plain_opt (LiftAmo i ROr I64) i
  | R_AMOXORW => plain_opt (LiftAmo i RXor I32) i
  | R_AMOXORD => plain_opt (LiftAmo i RXor I64) i
  | R_AMOMAXW => plain_opt (LiftAmo i RMax I32) i
  | R_AMOMAXD => plain_opt (LiftAmo i RMax I64) i
  | R_AMOMAXUW => plain_opt (LiftAmo i RUMax I32) i
  | R_AMOMAXUD => plain_opt (LiftAmo i RUMax I64) i
  | R_AMOMINW => plain_opt (LiftAmo i RMin I32) i
  | R_AMOMIND => plain_opt (LiftAmo i RMin I64) i
  | R_AMOMINUW => plain_opt (LiftAmo i RUMin I32) i
  | R_AMOMINUD => plain_opt (LiftAmo i RUMin I64) i
  | R_FLW => plain (LiftLoadFp i F32) i
  | R_FSW => plain (LiftStoreFp i F32) i
  | R_FCVTSL => plain (LiftFcvtIToF i F32 I64 FSIToFP) i
  | R_FCVTSW => plain (LiftFcvtIToF i F32 I32 FSIToFP) i
  | R_FCVTSLU => plain (LiftFcvtIToF i F32 I64 FUIToFP) i
  | R_FCVTSWU => plain (LiftFcvtIToF i F32 I32 FUIToFP) i
  | R_FCVTLS => plain_opt (LiftFcvtFToI i I64 F32 FToSI) i
  | R_FCVTWS => plain_opt (LiftFcvtFToI i I32 F32 FToSI) i
  | R_FCVTLUS => plain_opt (LiftFcvtFToI i I64 F32 FToUI) i
  | R_FCVTWUS => plain_opt (LiftFcvtFToI i I32 F32 FToUI) i
  | R_FMVXW => plain (StoreGp rd (eBitCast (TInt 32) (LoadFp rs1 F32))) i
  | R_FMVWX => plain (StoreFp rd (eBitCast TF32 (LoadGp rs1 I32))) i
  | R_FADDS => plain_opt (LiftFpArith i FAdd F32) i
  | R_FSUBS => plain_opt (LiftFpArith i FSub F32) i
  | R_FMULS => plain_opt (LiftFpArith i FMul F32) i
  | R_FDIVS => plain_opt (LiftFpArith i FDiv F32) i
  | R_FMINS => plain (LiftFminmax i FMinnum F32) i
  | R_FMAXS => plain (LiftFminmax i FMaxnum F32) i
  | R_FMADDS => plain (LiftFmadd i false false F32) i
  | R_FMSUBS => plain (LiftFmadd i true false F32) i
  | R_FNMSUBS => plain (LiftFmadd i false true F32) i
  | R_FNMADDS => plain (LiftFmadd i true true F32) i
  | R_FSQRTS => plain (StoreFp rd (E1 (OFp1 FSqrt TF32) (LoadFp rs1 F32))) i
  | R_FSGNJS => plain (LiftFsgn i F32 false true) i
  | R_FSGNJNS => plain (LiftFsgn i F32 false false) i
  | R_FSGNJXS => plain (LiftFsgn i F32 true false) i
  | R_FEQS => plain (LiftFcmp i FCMP_OEQ F32) i
  | R_FLTS => plain (LiftFcmp i FCMP_OLT F32) i
  | R_FLES => plain (LiftFcmp i FCMP_OLE F32) i
  | R_FCLASSS => plain (LiftFclass i I32) i
  | R_FLD => plain (LiftLoadFp i F64) i
  | R_FSD => plain (LiftStoreFp i F64) i
  | R_FCVTDL => plain (LiftFcvtIToF i F64 I64 FSIToFP) i
  | R_FCVTDW => plain (LiftFcvtIToF i F64 I32 FSIToFP) i
  | R_FCVTDLU => plain (LiftFcvtIToF i F64 I64 FUIToFP) i
  | R_FCVTDWU => plain (LiftFcvtIToF i F64 I32 FUIToFP) i
  | R_FCVTLD => plain_opt (LiftFcvtFToI i I64 F64 FToSI) i
  | R_FCVTWD => plain_opt (LiftFcvtFToI i I32 F64 FToSI) i
  | R_FCVTLUD => plain_opt (LiftFcvtFToI i I64 F64 FToUI) i
  | R_FCVTWUD => plain_opt (LiftFcvtFToI i I32 F64 FToUI) i
  | R_FMVXD => plain (StoreGp rd (eBitCast (TInt 64) (LoadFp rs1 F64))) i
  | R_FMVDX => plain (StoreFp rd (eBitCast TF64 (LoadGp rs1 I64))) i
  | R_FADDD => plain_opt (LiftFpArith i FAdd F64) i
  | R_FSUBD => plain_opt (LiftFpArith i FSub F64) i
  | R_FMULD => plain_opt (LiftFpArith i FMul F64) i
  | R_FDIVD => plain_opt (LiftFpArith i FDiv F64) i
  | R_FMIND => plain (LiftFminmax i FMinnum F64) i
  | R_FMAXD => plain (LiftFminmax i FMaxnum F64) i
  | R_FMADDD => plain (LiftFmadd i false false F64) i
  | R_FMSUBD => plain (LiftFmadd i true false F64) i
  | R_FNMSUBD => plain (LiftFmadd i false true F64) i
  | R_FNMADDD => plain (LiftFmadd i true true F64) i
  | R_FSQRTD => plain (StoreFp rd (E1 (OFp1 FSqrt TF64) (LoadFp rs1 F64))) i
  | R_FSGNJD => plain (LiftFsgn i F64 false true) i
  | R_FSGNJND => plain (LiftFsgn i F64 false false) i
  | R_FSGNJXD => plain (LiftFsgn i F64 true false) i
  | R_FEQD => plain (LiftFcmp i FCMP_OEQ F64) i
  | R_FLTD => plain (LiftFcmp i FCMP_OLT F64) i
  | R_FLED => plain (LiftFcmp i FCMP_OLE F64) i
  | R_FCVTSD => plain (StoreFp rd (E1 (OFp1 FTrunc TF32) (LoadFp rs1 F64))) i
  | R_FCVTDS => plain (StoreFp rd (E1 (OFp1 FExt TF64) (LoadFp rs1 F32))) i
  | R_FCLASSD => plain (LiftFclass i I64) i
  | R_ADDUW => plain (StoreGp rd (eAdd (LoadGp rs2 I64) (LoadUw rs1))) i
  | R_SH1ADD => plain (LiftShNAdd i 1 false) i
  | R_SH2ADD => plain (LiftShNAdd i 2 false) i
  | R_SH3ADD => plain (LiftShNAdd i 3 false) i
  | R_SH1ADDUW => plain (LiftShNAdd i 1 true) i
  | R_SH2ADDUW => plain (LiftShNAdd i 2 true) i
  | R_SH3ADDUW => plain (LiftShNAdd i 3 true) i
  | R_SLLIUW => plain (StoreGp rd (eShl (LoadUw rs1) (cI 64 imm))) i
  | R_ANDN => plain (StoreGp rd (eAnd (LoadGp rs1 I64) (eNot 64 (LoadGp rs2 I64)))) i
  | R_CLZ => plain (LiftIntr1 i (Ctlz false) I64) i
  | R_CLZW => plain (LiftIntr1 i (Ctlz false) I32) i
  | R_CPOP => plain (LiftIntr1 i Ctpop I64) i
  | R_CPOPW => plain (LiftIntr1 i Ctpop I32) i
  | R_CTZ => plain (LiftIntr1 i (Cttz false) I64) i
  | R_CTZW => plain (LiftIntr1 i (Cttz false) I32) i
  | R_MAX => plain (LiftIntr2 i SMax I64) i
  | R_MAXU => plain (LiftIntr2 i UMax I64) i
  | R_MIN => plain (LiftIntr2 i SMin I64) i
  | R_MINU => plain (LiftIntr2 i UMin I64) i
  | R_ORCB => plain (LiftOrcb i) i
  | R_ORN => plain (StoreGp rd (eOr (LoadGp rs1 I64) (eNot 64 (LoadGp rs2 I64)))) i
  | R_REV8 => plain (LiftIntr1 i Bswap I64) i
  | R_ROL => plain (LiftRotate i true (LoadGp rs2 I64) false) i
  | R_ROLW => plain (LiftRotate i true (LoadGp rs2 I32) true) i
  | R_ROR => plain (LiftRotate i false (LoadGp rs2 I64) false) i
  | R_RORW => plain (LiftRotate i false (LoadGp rs2 I32) true) i
  | R_RORI => plain (LiftRotate i false (cI 64 imm) false) i
  | R_RORIW => plain (LiftRotate i false (cI 32 imm) true) i
  | R_SEXTB => plain (StoreGp rd (LoadGp rs1 I8)) i
  | R_SEXTH => plain (StoreGp rd (LoadGp rs1 I16)) i
  | R_XNOR => plain (StoreGp rd (eNot 64 (eXor (LoadGp rs1 I64) (LoadGp rs2 I64)))) i
  | R_ZEXTH => plain (StoreGp rd (eZExt 64 (LoadGp rs1 I16))) i
  | R_CLMUL => plain (LiftCLMul i CLMUL) i
  | R_CLMULH => plain (LiftCLMul i CLMULH) i
  | R_CLMULR => plain (LiftCLMul i CLMULR) i
  | R_BCLR => plain (LiftBitInstruction i And (LoadGp rs2 I64) true) i
  | R_BCLRI => plain (LiftBitInstruction i And (cI 64 imm) true) i
  | R_BEXT => plain (LiftBitExtract i (LoadGp rs2 I64)) i
  | R_BEXTI => plain (LiftBitExtract i (cI 64 imm)) i
  | R_BINV => plain (LiftBitInstruction i Xor (LoadGp rs2 I64) false) i
  | R_BINVI => plain (LiftBitInstruction i Xor (cI 64 imm) false) i
  | R_BSET => plain (LiftBitInstruction i Or (LoadGp rs2 I64) false) i
  | R_BSETI => plain (LiftBitInstruction i Or (cI 64 imm) false) i
  end.

(** lifter.cc:363-382: Lift sets the PC to the instruction's start first; an
    override ([ov]) replaces the instruction by a call. The instruction marker
    (369-375) is a call without effect on CPU state and is not modelled. *)
Definition lift_rv64 (ov : option Z) (i : rvinst) : option (bool * list stm) :=
  match ov with
  | Some f => Some (true, [SPcConst (r_start i); SCall f])
  | None => match lift_mnem i with
            | Some (b, l) => Some (b, SPcConst (r_start i) :: l)
            | None => None
            end
  end.
End Lift.
