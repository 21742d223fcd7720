(** Independent specification of the RV64 instructions (RISC-V unprivileged
    ISA manual, chapters RV32I/RV64I, M, A, F/D moves and sign injection,
    Zba/Zbb/Zbc/Zbs). Nothing here refers to the lifter, to LLVM-IR or to the
    bit-vector helpers of Bits.v; only the decoded-instruction record and the
    byte-addressed memory type are shared. All arithmetic is on [Z]. *)

From Coq Require Import ZArith List Bool.
From Verif Require Import Bits Rv64.
Import ListNotations.
Open Scope Z_scope.

(** Guest state: integer registers (x0 is ignored), FP registers, PC, memory. *)
Record gst := Gst { g_x : Z -> Z; g_f : Z -> Z; g_pc : Z; g_mem : bytes }.

(** Unsigned and signed reading of the low [w] bits. *)
Definition U (w z : Z) : Z := z mod 2^w.
Definition S_ (w z : Z) : Z := let u := z mod 2^w in if u <? 2^(w-1) then u else u - 2^w.

(** x0 always reads zero; writes to it are dropped. *)
Definition rx (g : gst) (n : Z) : Z := if n =? 0 then 0 else g_x g n.
Definition wx (g : gst) (n v : Z) : gst :=
  if n =? 0 then g else Gst (fun k => if k =? n then U 64 v else g_x g k) (g_f g) (g_pc g) (g_mem g).
Definition wf (g : gst) (n v : Z) : gst :=
  Gst (g_x g) (fun k => if k =? n then v else g_f g k) (g_pc g) (g_mem g).
Definition wpc (g : gst) (a : Z) : gst := Gst (g_x g) (g_f g) (U 64 a) (g_mem g).
Definition wmem (g : gst) (m : bytes) : gst := Gst (g_x g) (g_f g) (g_pc g) m.

(** Little-endian memory: byte [k] of an access at [a] lives at (a+k) mod 2^64. *)
Fixpoint rd_mem (m : bytes) (a : Z) (n : nat) : Z :=
  match n with
  | O => 0
  | S n' => rd_mem m a n' + (m (U 64 (a + Z.of_nat n')) mod 256) * 256 ^ Z.of_nat n'
  end.
(** Storing [n] bytes: address [x] holds byte (x-a) mod 2^64 of the value if
    that offset is below [n], and is unchanged otherwise. *)
Definition wr_mem (m : bytes) (a : Z) (n : nat) (v : Z) : bytes :=
  fun x => let k := U 64 (x - a) in
           if (k <? Z.of_nat n) && (0 <=? x) && (x <? 2^64) then (v / 256 ^ k) mod 256 else m x.

(** Zbb/Zbc helpers, defined bit by bit. *)
Fixpoint clz (n : nat) (a : Z) : Z :=
  match n with O => 0 | S k => if Z.testbit a (Z.of_nat k) then 0 else 1 + clz k a end.
Fixpoint ctz (n : nat) (a : Z) : Z :=
  match n with O => 0 | S k => if Z.odd a then 0 else 1 + ctz k (a / 2) end.
Fixpoint cpop (n : nat) (a : Z) : Z :=
  match n with O => 0 | S k => a mod 2 + cpop k (a / 2) end.
(** Sum over the eight bytes. *)
Fixpoint bytes8 (f : Z -> Z) (n : nat) : Z :=
  match n with O => 0 | S k => bytes8 f k + f (Z.of_nat k) end.
Definition byte (a k : Z) : Z := (a / 256^k) mod 256.
Definition orcb (a : Z) : Z := bytes8 (fun k => if byte a k =? 0 then 0 else 255 * 256^k) 8.
Definition rev8 (a : Z) : Z := bytes8 (fun k => byte a k * 256^(7 - k)) 8.
Definition rotl (w a k : Z) : Z := let a := U w a in let k := k mod w in a * 2^k + a / 2^(w - k).
Definition rotr (w a k : Z) : Z := rotl w a (- k).
(** The 127-bit carry-less product. *)
Fixpoint clprod (a b : Z) (n : nat) : Z :=
  match n with
  | O => 0
  | S k => Z.lxor (clprod a b k) (if Z.testbit b (Z.of_nat k) then a * 2 ^ Z.of_nat k else 0)
  end.

Definition bool_z (b : bool) : Z := if b then 1 else 0.
(** Division: x/0 = -1, x%0 = x; overflow wraps by itself. *)
Definition sdiv (a b : Z) : Z := if b =? 0 then -1 else Z.quot a b.
Definition srem (a b : Z) : Z := if b =? 0 then a else Z.rem a b.
Definition udiv (a b : Z) : Z := if b =? 0 then -1 else a / b.
Definition urem (a b : Z) : Z := if b =? 0 then a else a mod b.

(** Result of integer computational instructions (to be reduced mod 2^64).
    [a], [b] are the operands rs1, rs2. *)
Definition isa_int (mn : rvmnem) (a b imm pc : Z) : option Z :=
  match mn with
  | R_LUI => Some imm
  | R_AUIPC => Some (pc + imm)
  | R_ADDI => Some (a + imm)
  | R_ADD => Some (a + b)
  | R_SUB => Some (a - b)
  | R_ADDIW => Some (S_ 32 (a + imm))
  | R_ADDW => Some (S_ 32 (a + b))
  | R_SUBW => Some (S_ 32 (a - b))
  | R_ANDI => Some (Z.land a imm)
  | R_AND => Some (Z.land a b)
  | R_ORI => Some (Z.lor a imm)
  | R_OR => Some (Z.lor a b)
  | R_XORI => Some (Z.lxor a imm)
  | R_XOR => Some (Z.lxor a b)
  | R_SLLI => Some (a * 2^(imm mod 64))
  | R_SLL => Some (a * 2^(b mod 64))
  | R_SLLIW => Some (S_ 32 (a * 2^(imm mod 32)))
  | R_SLLW => Some (S_ 32 (a * 2^(b mod 32)))
  | R_SRLI => Some (a / 2^(imm mod 64))
  | R_SRL => Some (a / 2^(b mod 64))
  | R_SRLIW => Some (S_ 32 (U 32 a / 2^(imm mod 32)))
  | R_SRLW => Some (S_ 32 (U 32 a / 2^(b mod 32)))
  | R_SRAI => Some (S_ 64 a / 2^(imm mod 64))
  | R_SRA => Some (S_ 64 a / 2^(b mod 64))
  | R_SRAIW => Some (S_ 32 a / 2^(imm mod 32))
  | R_SRAW => Some (S_ 32 a / 2^(b mod 32))
  | R_SLT => Some (bool_z (S_ 64 a <? S_ 64 b))
  | R_SLTI => Some (bool_z (S_ 64 a <? S_ 64 imm))
  | R_SLTU => Some (bool_z (a <? b))
  | R_SLTIU => Some (bool_z (a <? U 64 imm))
  | R_MUL => Some (a * b)
  | R_MULW => Some (S_ 32 (a * b))
  | R_MULH => Some (S_ 64 a * S_ 64 b / 2^64)
  | R_MULHSU => Some (S_ 64 a * b / 2^64)
  | R_MULHU => Some (a * b / 2^64)
  | R_DIV => Some (sdiv (S_ 64 a) (S_ 64 b))
  | R_DIVU => Some (udiv a b)
  | R_DIVW => Some (S_ 32 (sdiv (S_ 32 a) (S_ 32 b)))
  | R_DIVUW => Some (S_ 32 (udiv (U 32 a) (U 32 b)))
  | R_REM => Some (srem (S_ 64 a) (S_ 64 b))
  | R_REMU => Some (urem a b)
  | R_REMW => Some (S_ 32 (srem (S_ 32 a) (S_ 32 b)))
  | R_REMUW => Some (S_ 32 (urem (U 32 a) (U 32 b)))
  | _ => None
  end.

(** Bit manipulation (Zba, Zbb, Zbc, Zbs). *)
Definition isa_bit (mn : rvmnem) (a b imm : Z) : option Z :=
  match mn with
  | R_ADDUW => Some (b + U 32 a)
  | R_SH1ADD => Some (b + 2 * a)
  | R_SH2ADD => Some (b + 4 * a)
  | R_SH3ADD => Some (b + 8 * a)
  | R_SH1ADDUW => Some (b + 2 * U 32 a)
  | R_SH2ADDUW => Some (b + 4 * U 32 a)
  | R_SH3ADDUW => Some (b + 8 * U 32 a)
  | R_SLLIUW => Some (U 32 a * 2^(imm mod 64))
  | R_ANDN => Some (Z.land a (Z.lnot b))
  | R_ORN => Some (Z.lor a (Z.lnot b))
  | R_XNOR => Some (Z.lnot (Z.lxor a b))
  | R_CLZ => Some (clz 64 a)
  | R_CLZW => Some (clz 32 a)
  | R_CTZ => Some (ctz 64 a)
  | R_CTZW => Some (ctz 32 a)
  | R_CPOP => Some (cpop 64 a)
  | R_CPOPW => Some (cpop 32 a)
  | R_MAX => Some (Z.max (S_ 64 a) (S_ 64 b))
  | R_MAXU => Some (Z.max a b)
  | R_MIN => Some (Z.min (S_ 64 a) (S_ 64 b))
  | R_MINU => Some (Z.min a b)
  | R_ORCB => Some (orcb a)
  | R_REV8 => Some (rev8 a)
  | R_ROL => Some (rotl 64 a b)
  | R_ROLW => Some (S_ 32 (rotl 32 a b))
  | R_ROR => Some (rotr 64 a b)
  | R_RORI => Some (rotr 64 a imm)
  | R_RORW => Some (S_ 32 (rotr 32 a b))
  | R_RORIW => Some (S_ 32 (rotr 32 a imm))
  | R_SEXTB => Some (S_ 8 a)
  | R_SEXTH => Some (S_ 16 a)
  | R_ZEXTH => Some (U 16 a)
  | R_CLMUL => Some (clprod a b 64)
  | R_CLMULH => Some (clprod a b 64 / 2^64)
  | R_CLMULR => Some (clprod a b 64 / 2^63)
  | R_BCLR => Some (if Z.testbit a (b mod 64) then a - 2^(b mod 64) else a)
  | R_BCLRI => Some (if Z.testbit a (imm mod 64) then a - 2^(imm mod 64) else a)
  | R_BSET => Some (if Z.testbit a (b mod 64) then a else a + 2^(b mod 64))
  | R_BSETI => Some (if Z.testbit a (imm mod 64) then a else a + 2^(imm mod 64))
  | R_BINV => Some (if Z.testbit a (b mod 64) then a - 2^(b mod 64) else a + 2^(b mod 64))
  | R_BINVI => Some (if Z.testbit a (imm mod 64) then a - 2^(imm mod 64) else a + 2^(imm mod 64))
  | R_BEXT => Some (bool_z (Z.testbit a (b mod 64)))
  | R_BEXTI => Some (bool_z (Z.testbit a (imm mod 64)))
  | _ => None
  end.

(** Loads: bytes, sign extension. LR behaves as a load. *)
Definition isa_load (mn : rvmnem) : option (nat * bool) :=
  match mn with
  | R_LB => Some (1%nat, true) | R_LBU => Some (1%nat, false)
  | R_LH => Some (2%nat, true) | R_LHU => Some (2%nat, false)
  | R_LW => Some (4%nat, true) | R_LWU => Some (4%nat, false)
  | R_LD => Some (8%nat, true)
  | _ => None
  end.
Definition isa_lr (mn : rvmnem) : option nat :=
  match mn with R_LRW => Some 4%nat | R_LRD => Some 8%nat | _ => None end.
Definition isa_sc (mn : rvmnem) : option nat :=
  match mn with R_SCW => Some 4%nat | R_SCD => Some 8%nat | _ => None end.
Definition isa_store (mn : rvmnem) : option nat :=
  match mn with R_SB => Some 1%nat | R_SH => Some 2%nat | R_SW => Some 4%nat | R_SD => Some 8%nat | _ => None end.

(** AMO: width in bytes and new memory value from the old one and rs2, both read
    as [w]-bit patterns. *)
Definition isa_amo (mn : rvmnem) : option (nat * (Z -> Z -> Z)) :=
  match mn with
  | R_AMOSWAPW => Some (4%nat, fun _ v => v) | R_AMOSWAPD => Some (8%nat, fun _ v => v)
  | R_AMOADDW => Some (4%nat, Z.add) | R_AMOADDD => Some (8%nat, Z.add)
  | R_AMOANDW => Some (4%nat, Z.land) | R_AMOANDD => Some (8%nat, Z.land)
  | R_AMOORW => Some (4%nat, Z.lor) | R_AMOORD => Some (8%nat, Z.lor)
  | R_AMOXORW => Some (4%nat, Z.lxor) | R_AMOXORD => Some (8%nat, Z.lxor)
  | R_AMOMAXW => Some (4%nat, fun o v => Z.max (S_ 32 o) (S_ 32 v))
  | R_AMOMAXD => Some (8%nat, fun o v => Z.max (S_ 64 o) (S_ 64 v))
  | R_AMOMINW => Some (4%nat, fun o v => Z.min (S_ 32 o) (S_ 32 v))
  | R_AMOMIND => Some (8%nat, fun o v => Z.min (S_ 64 o) (S_ 64 v))
  | R_AMOMAXUW => Some (4%nat, fun o v => Z.max o v) | R_AMOMAXUD => Some (8%nat, fun o v => Z.max o v)
  | R_AMOMINUW => Some (4%nat, fun o v => Z.min o v) | R_AMOMINUD => Some (8%nat, fun o v => Z.min o v)
  | _ => None
  end.

(** Conditional branches. *)
Definition isa_branch (mn : rvmnem) (a b : Z) : option bool :=
  match mn with
  | R_BEQ => Some (a =? b) | R_BNE => Some (negb (a =? b))
  | R_BLT => Some (S_ 64 a <? S_ 64 b) | R_BGE => Some (S_ 64 b <=? S_ 64 a)
  | R_BLTU => Some (a <? b) | R_BGEU => Some (b <=? a)
  | _ => None
  end.

(** Floating-point instructions that only move bits. A single-precision value
    lives NaN-boxed in a 64-bit register (manual, section "NaN Boxing of Narrower
    Values"). *)
Definition nanbox (z : Z) : Z := (2^32 - 1) * 2^32 + U 32 z.
Definition unbox (f : Z) : Z := if f / 2^32 =? 2^32 - 1 then U 32 f else 0x7fc00000.
(** Sign injection on [w]-bit patterns: magnitude of [x], sign bit [sg]. *)
Definition signof (w x : Z) : Z := x / 2^(w-1).
Definition with_sign (w x sg : Z) : Z := x mod 2^(w-1) + sg * 2^(w-1).
Definition isa_fsgn (w x y : Z) (mode : Z) : Z :=
  with_sign w x (if mode =? 0 then signof w y
                 else if mode =? 1 then 1 - signof w y
                 else (signof w x + signof w y) mod 2).
(** fclass: which of the ten classes; the result register gets 2^class. *)
Definition fclass (w mant x : Z) : Z :=
  let sg := x / 2^(w-1) in
  let ex := (x / 2^mant) mod 2^(w - 1 - mant) in
  let m := x mod 2^mant in
  if ex =? 2^(w - 1 - mant) - 1 then
    if m =? 0 then (if sg =? 0 then 7 else 0)
    else if m / 2^(mant-1) =? 0 then 8 else 9
  else if ex =? 0 then
    if m =? 0 then (if sg =? 0 then 4 else 3) else (if sg =? 0 then 5 else 2)
  else if sg =? 0 then 6 else 1.

(** Double-precision moves, stores of either width, and fmv.x.w. *)
Definition isa_fpd (i : rvinst) (g : gst) : option gst :=
  let a := rx g (r_rs1 i) in
  let ea := U 64 (a + r_imm i) in
  let f1 := g_f g (r_rs1 i) in
  let f2 := g_f g (r_rs2 i) in
  match r_mn i with
  | R_FLD => Some (wf g (r_rd i) (rd_mem (g_mem g) ea 8))
  | R_FSD => Some (wmem g (wr_mem (g_mem g) ea 8 f2))
  | R_FSW => Some (wmem g (wr_mem (g_mem g) ea 4 f2))
  | R_FMVXW => Some (wx g (r_rd i) (S_ 32 f1))
  | R_FMVXD => Some (wx g (r_rd i) f1)
  | R_FMVDX => Some (wf g (r_rd i) a)
  | R_FSGNJD => Some (wf g (r_rd i) (isa_fsgn 64 f1 f2 0))
  | R_FSGNJND => Some (wf g (r_rd i) (isa_fsgn 64 f1 f2 1))
  | R_FSGNJXD => Some (wf g (r_rd i) (isa_fsgn 64 f1 f2 2))
  | _ => None
  end.
(** Single-precision results: the 32-bit pattern, before boxing. [f1], [f2] are
    the 32-bit operand patterns. *)
Definition isa_fps (i : rvinst) (g : gst) (f1 f2 : Z) : option Z :=
  let a := rx g (r_rs1 i) in
  match r_mn i with
  | R_FLW => Some (rd_mem (g_mem g) (U 64 (a + r_imm i)) 4)
  | R_FMVWX => Some (U 32 a)
  | R_FSGNJS => Some (isa_fsgn 32 f1 f2 0)
  | R_FSGNJNS => Some (isa_fsgn 32 f1 f2 1)
  | R_FSGNJXS => Some (isa_fsgn 32 f1 f2 2)
  | _ => None
  end.

(** One instruction. [None]: not specified here. *)
Definition isa_step (i : rvinst) (g : gst) : option gst :=
  let a := rx g (r_rs1 i) in
  let b := rx g (r_rs2 i) in
  let imm := r_imm i in
  let pc := g_pc g in
  let next := pc + r_len i in
  let ea := U 64 (a + imm) in
  match isa_int (r_mn i) a b imm pc with
  | Some v => Some (wpc (wx g (r_rd i) v) next)
  | None =>
  match isa_bit (r_mn i) a b imm with
  | Some v => Some (wpc (wx g (r_rd i) v) next)
  | None =>
  match isa_load (r_mn i) with
  | Some (n, sg) =>
    let v := rd_mem (g_mem g) ea n in
    Some (wpc (wx g (r_rd i) (if sg then S_ (8 * Z.of_nat n) v else v)) next)
  | None =>
  match isa_store (r_mn i) with
  | Some n => Some (wpc (wmem g (wr_mem (g_mem g) ea n b)) next)
  | None =>
  match isa_lr (r_mn i) with
  | Some n => Some (wpc (wx g (r_rd i) (S_ (8 * Z.of_nat n) (rd_mem (g_mem g) a n))) next)
  | None =>
  match isa_sc (r_mn i) with
  | Some n => (* a store-conditional that succeeds *)
    Some (wpc (wx (wmem g (wr_mem (g_mem g) a n b)) (r_rd i) 0) next)
  | None =>
  match isa_amo (r_mn i) with
  | Some (n, f) =>
    let w := 8 * Z.of_nat n in
    let old := rd_mem (g_mem g) a n in
    Some (wpc (wx (wmem g (wr_mem (g_mem g) a n (f old (U w b)))) (r_rd i) (S_ w old)) next)
  | None =>
  match isa_branch (r_mn i) a b with
  | Some t => Some (wpc g (if t then pc + imm else next))
  | None =>
  match r_mn i with
  | R_JAL => Some (wpc (wx g (r_rd i) next) (pc + imm))
  | R_JALR => Some (wpc (wx g (r_rd i) next) (2 * ((a + imm) / 2)))
  | R_FENCE => Some (wpc g next)
  | _ =>
  match isa_fpd i g with
  | Some g' => Some (wpc g' next)
  | None =>
  match isa_fps i g (unbox (g_f g (r_rs1 i))) (unbox (g_f g (r_rs2 i))) with
  | Some z => Some (wpc (wf g (r_rd i) (nanbox z)) next)
  | None =>
  match r_mn i with
  | R_FCLASSS => Some (wpc (wx g (r_rd i) (2 ^ fclass 32 23 (unbox (g_f g (r_rs1 i))))) next)
  | R_FCLASSD => Some (wpc (wx g (r_rd i) (2 ^ fclass 64 52 (g_f g (r_rs1 i)))) next)
  | _ => None
  end end end
  end end end end end end end end end.
