(** Instruction classification for RV64 and example programs. *)

From Coq Require Import ZArith Lia List Bool.
From Verif Require Import Bits IR Facet Dsl Rv64 Decode DecodeOk.
Import ListNotations.
Open Scope Z_scope.

(** lldecoder.cc:93-114 classifyInstr, case Arch::RV64 (uint64_t arithmetic). *)
Definition rv_cls (i : rvinst) : kind * Z :=
  match r_mn i with
  | R_BEQ | R_BNE | R_BLT | R_BGE | R_BLTU | R_BGEU => (KCond, trunc 64 (r_start i + r_imm i))
  | R_JAL => if negb (r_rd i =? 0) then (KCall, 0) else (KBranch, trunc 64 (r_start i + r_imm i))
  | R_JALR => (if negb (r_rd i =? 0) then KCall else KBranch, 0)
  | R_ECALL => (KUnknown, 0)
  | _ => (KOther, 0)
  end.

(** A program as a finite map; used for examples only. *)
Fixpoint prog (l : list rvinst) (a : Z) : option rvinst :=
  match l with
  | [] => None
  | i :: l' => if r_start i =? a then Some i else prog l' a
  end.
Definition insn (mn : rvmnem) (rd rs1 rs2 imm a : Z) : rvinst := RvInst mn rd rs1 rs2 128 imm 7 a 4.
(** A loop with a call:
    1000 addi x5,x5,-1; 1004 jal x1,+0x100; 1008 bne x5,x0,1000; 100c jalr x0,0(x1). *)
Definition p_loop : list rvinst :=
  [insn R_ADDI 5 5 128 (-1) 0x1000; insn R_JAL 1 128 128 0x100 0x1004; insn R_BNE 128 5 0 (-8) 0x1008; insn R_JALR 0 1 128 0 0x100c].
(** 1000 beq x5,x0,2000; 1004 addi; 1008 jal x0,1004 (a loop whose head follows the branch);
    2000: ecall *)
Definition p_self : list rvinst :=
  [insn R_BEQ 128 5 0 0x1000 0x1000; insn R_ADDI 5 5 128 (-1) 0x1004; insn R_JAL 0 128 128 (-4) 0x1008; insn R_ECALL 128 128 128 0 0x2000].
Notation rdecode := (decode rvinst r_len rv_cls).
Notation rcalls := (calls rvinst r_len rv_cls).
Definition starts (s : dst rvinst) : list (Z * bool) := map (fun d => (d_start _ d, d_new _ d)) (f_ins _ s).
