(** Independent specification of the AArch64 instructions handled by A64.v, after the
    pseudocode of the Arm Architecture Reference Manual (AddWithCarry, ShiftReg,
    ExtendReg, ConditionHolds, ...). It shares only the decoded-instruction record, the
    memory type and the byte/bit helpers of Rv64Spec.v with the model. *)

From Coq Require Import ZArith List Bool.
From Verif Require Import Bits Rv64Spec A64.
Import ListNotations.
Open Scope Z_scope.

(** Guest state: X0..X30, SP, NZCV ([None]: unspecified), V0..V31, TPIDR_EL0, PC, memory. *)
Inductive kflag := fN | fZ | fC | fV.
Definition kflag_eqb (a b : kflag) : bool :=
  match a, b with fN, fN | fZ, fZ | fC, fC | fV, fV => true | _, _ => false end.
Record kst := Kst { k_x : Z -> Z; k_sp : Z; k_f : kflag -> option bool; k_q : Z -> Z; k_tp : Z; k_pc : Z; k_m : bytes }.

Definition fl (g : kst) (f : kflag) : bool := match k_f g f with Some b => b | None => false end.
(** Reading and writing general registers: a W write clears the upper half. *)
Definition rdx (g : kst) (r : xr) (w : Z) : Z :=
  U w (match r with RX n => k_x g n | RZR => 0 | RSP => k_sp g end).
Definition wrx (g : kst) (r : xr) (w v : Z) : kst :=
  match r with
  | RX n => Kst (fun k => if k =? n then U w v else k_x g k) (k_sp g) (k_f g) (k_q g) (k_tp g) (k_pc g) (k_m g)
  | RZR => g
  | RSP => Kst (k_x g) (U w v) (k_f g) (k_q g) (k_tp g) (k_pc g) (k_m g)
  end.
Definition wrq (g : kst) (n v : Z) : kst :=
  Kst (k_x g) (k_sp g) (k_f g) (fun k => if k =? n then v else k_q g k) (k_tp g) (k_pc g) (k_m g).
Definition wrf (g : kst) (f : kflag -> option bool) : kst := Kst (k_x g) (k_sp g) f (k_q g) (k_tp g) (k_pc g) (k_m g).
Definition wrm (g : kst) (m : bytes) : kst := Kst (k_x g) (k_sp g) (k_f g) (k_q g) (k_tp g) (k_pc g) m.
Definition wrpc (g : kst) (a : Z) : kst := Kst (k_x g) (k_sp g) (k_f g) (k_q g) (k_tp g) (U 64 a) (k_m g).
Definition wrtp (g : kst) (v : Z) : kst := Kst (k_x g) (k_sp g) (k_f g) (k_q g) v (k_pc g) (k_m g).
Definition nzcv (n z c v : bool) : kflag -> option bool :=
  fun f => Some match f with fN => n | fZ => z | fC => c | fV => v end.

(** AddWithCarry(x, y, carry_in) at width w. *)
Definition awc (w x y : Z) (ci : bool) : Z * (kflag -> option bool) :=
  let us := x + y + bool_z ci in
  let ss := S_ w x + S_ w y + bool_z ci in
  let r := U w us in
  (r, nzcv (Z.testbit r (w - 1)) (r =? 0) (negb (r =? us)) (negb (S_ w r =? ss))).
(** NOT at width w. *)
Definition knot (w x : Z) : Z := 2^w - 1 - x.
(** ShiftReg. *)
Definition shift_reg (w : Z) (sh : shk) (v k : Z) : Z :=
  match sh with
  | SH_LSL => U w (v * 2^k)
  | SH_LSR => v / 2^k
  | SH_ASR => U w (S_ w v / 2^k)
  | SH_ROR => U w (rotr w v k)
  end.
(** ExtendReg: the low bits of the register, at most what fits above the shift. *)
Definition ext_len (e : extk) : Z :=
  match e with UXTB | SXTB => 8 | UXTH | SXTH => 16 | UXTW | SXTW => 32 | UXTX | SXTX => 64 end.
Definition ext_uns (e : extk) : bool := match e with UXTB | UXTH | UXTW | UXTX => true | _ => false end.
Definition extend_reg (w : Z) (e : extk) (v k : Z) : Z :=
  let len := Z.min (ext_len e) (w - k) in
  U w ((if ext_uns e then U len v else S_ len v) * 2^k).
(** ConditionHolds. *)
Definition cond_holds (k : Z) (g : kst) : bool :=
  let n := fl g fN in let z := fl g fZ in let c := fl g fC in let v := fl g fV in
  let r := match k / 2 with
           | 0 => z
           | 1 => c
           | 2 => n
           | 3 => v
           | 4 => c && negb z
           | 5 => Bool.eqb n v
           | 6 => Bool.eqb n v && negb z
           | _ => true
           end in
  if (k mod 2 =? 1) && negb (k =? 15) then negb r else r.
(** Flags a condition depends on. *)
Definition cond_flags (k : Z) : list kflag :=
  match k / 2 with
  | 0 => [fZ] | 1 => [fC] | 2 => [fN] | 3 => [fV]
  | 4 => [fC; fZ] | 5 => [fN; fV] | 6 => [fN; fV; fZ] | _ => []
  end.

(** Bit reversal of the low [n] bits, byte reversal inside containers of [b] bytes, leading sign bits. *)
Fixpoint rbit (n : nat) (a : Z) : Z :=
  match n with O => 0 | S k => (a mod 2) * 2 ^ Z.of_nat k + rbit k (a / 2) end.
Definition rev_in (b w a : Z) : Z :=
  bytes8 (fun k => byte a k * 256 ^ (k - k mod b + (b - 1 - k mod b))) (Z.to_nat (w / 8)).
(** Number of consecutive bits equal to [b] from bit n-1 downwards. *)
Fixpoint lead (n : nat) (a : Z) (b : bool) : Z :=
  match n with O => 0 | S k => if Bool.eqb (Z.testbit a (Z.of_nat k)) b then 1 + lead k a b else 0 end.

(** Result and flags of data-processing instructions; [None] flags: unchanged. *)
Definition kres := option (Z * option (kflag -> option bool)).
Definition kdp (i : ainst) (g : kst) : kres :=
  let w := if a_w32 i then 32 else 64 in
  let n := rdx g (a_rn i) w in
  let m := rdx g (a_rm i) w in
  let a := rdx g (a_ra i) w in
  let d := rdx g (a_rd i) w in
  let imm := U w (a_imm i) in
  let sh := shift_reg w (a_sh i) m (a_amt i) in
  let ex := extend_reg w (a_ext i) m (a_lsl i) in
  let k := cond_holds (a_cond i) g in
  let lsb := a_lsb i in
  let wd := a_width i in
  let arith (rf : Z * (kflag -> option bool)) : kres := Some (fst rf, if a_flags i then Some (snd rf) else None) in
  let add y := arith (awc w n y false) in
  let sub y := arith (awc w n (knot w y) true) in
  let logic r : kres := Some (r, if a_flags i then Some (nzcv (Z.testbit r (w - 1)) (r =? 0) false false) else None) in
  let set r : kres := Some (U w r, None) in
  let div x y := if y =? 0 then 0 else Z.quot x y in
  let n32 s := if s : bool then S_ 32 (rdx g (a_rn i) 32) else rdx g (a_rn i) 32 in
  let m32 s := if s : bool then S_ 32 (rdx g (a_rm i) 32) else rdx g (a_rm i) 32 in
  let a64 := rdx g (a_ra i) 64 in
  let n64 := rdx g (a_rn i) 64 in
  let m64 := rdx g (a_rm i) 64 in
  match a_op i with
  | A_ADR => set (k_pc g + a_off i)
  | A_ADRP => set (k_pc g - k_pc g mod 4096 + a_off i)
  | A_AND_IMM => logic (Z.land n imm)
  | A_ORR_IMM => logic (Z.lor n imm)
  | A_EOR_IMM => logic (Z.lxor n imm)
  | A_ADD_IMM => add imm
  | A_SUB_IMM => sub imm
  | A_MOV_SP => set n
  | A_MOVK => set (d - (d / 2^(a_lsl i) mod 2^16) * 2^(a_lsl i) + a_imm i * 2^(a_lsl i))
  | A_MOV_IMM => set (a_imm i)
  | A_ASR_IMM => set (S_ w n / 2^(a_imm i))
  | A_LSL_IMM => set (n * 2^(a_imm i))
  | A_LSR_IMM => set (n / 2^(a_imm i))
  | A_ROR_IMM => set (rotr w n (a_imm i))
  | A_SBFIZ => set (S_ wd n * 2^lsb)
  | A_SBFX => set (S_ wd (n / 2^lsb))
  | A_UBFIZ => set (U wd n * 2^lsb)
  | A_UBFX => set (U wd (n / 2^lsb))
  | A_BFC => set (d - U wd (d / 2^lsb) * 2^lsb)
  | A_BFI => set (d - U wd (d / 2^lsb) * 2^lsb + U wd n * 2^lsb)
  | A_BFXIL => set (d - U wd d + U wd (n / 2^lsb))
  | A_EXTEND => set (extend_reg w (a_ext i) n 0)
  | A_EXTR => set ((n * 2^w + m) / 2^(a_imm i))
  | A_UDIV => set (div n m)
  | A_SDIV => set (div (S_ w n) (S_ w m))
  | A_LSLV => set (n * 2^(m mod w))
  | A_LSRV => set (n / 2^(m mod w))
  | A_ASRV => set (S_ w n / 2^(m mod w))
  | A_RORV => set (rotr w n (m mod w))
  | A_RBIT => set (rbit (Z.to_nat w) n)
  | A_REV16 => set (rev_in 2 w n)
  | A_REV32 => set (rev_in 4 w n)
  | A_REV => set (rev_in (w / 8) w n)
  | A_CLZ => set (clz (Z.to_nat w) n)
  | A_CLS => set (lead (Z.to_nat (w - 1)) n (Z.testbit n (w - 1)))
  | A_AND_SHIFTED => logic (Z.land n sh)
  | A_BIC => logic (Z.land n (knot w sh))
  | A_ORR_SHIFTED => logic (Z.lor n sh)
  | A_ORN => logic (Z.lor n (knot w sh))
  | A_MVN => set (knot w sh)
  | A_MOV_REG => set m
  | A_EOR_SHIFTED => logic (Z.lxor n sh)
  | A_EON => logic (Z.lxor n (knot w sh))
  | A_ADD_SHIFTED => add sh
  | A_SUB_SHIFTED => sub sh
  | A_NEG => arith (awc w 0 (knot w sh) true)
  | A_ADD_EXT => add ex
  | A_SUB_EXT => sub ex
  | A_ADC => arith (awc w n m (fl g fC))
  | A_SBC => arith (awc w n (knot w m) (fl g fC))
  | A_NGC => arith (awc w 0 (knot w m) (fl g fC))
  | A_CSEL => set (if k then n else m)
  | A_CSINC => set (if k then n else m + 1)
  | A_CSINV => set (if k then n else knot w m)
  | A_CSNEG => set (if k then n else - m)
  | A_CINC => set (if k then n + 1 else n)
  | A_CINV => set (if k then knot w n else n)
  | A_CNEG => set (if k then - n else n)
  | A_CSET => set (if k then 1 else 0)
  | A_CSETM => set (if k then -1 else 0)
  | A_MUL => set (n * m)
  | A_MADD => set (a + n * m)
  | A_MSUB => set (a - n * m)
  | A_MNEG => set (- (n * m))
  | A_SMADDL => set (a64 + n32 true * m32 true)
  | A_SMULL => set (n32 true * m32 true)
  | A_SMSUBL => set (a64 - n32 true * m32 true)
  | A_SMNEGL => set (- (n32 true * m32 true))
  | A_SMULH => set (S_ 64 n64 * S_ 64 m64 / 2^64)
  | A_UMADDL => set (a64 + n32 false * m32 false)
  | A_UMULL => set (n32 false * m32 false)
  | A_UMSUBL => set (a64 - n32 false * m32 false)
  | A_UMNEGL => set (- (n32 false * m32 false))
  | A_UMULH => set (n64 * m64 / 2^64)
  | _ => None
  end.

(** Compare instructions: flags only. *)
Definition kcmp (i : ainst) (g : kst) : option (kflag -> option bool) :=
  let w := if a_w32 i then 32 else 64 in
  let n := rdx g (a_rn i) w in
  let m := rdx g (a_rm i) w in
  let imm := U w (a_imm i) in
  let sh := shift_reg w (a_sh i) m (a_amt i) in
  let ex := extend_reg w (a_ext i) m (a_lsl i) in
  let add y := snd (awc w n y false) in
  let sub y := snd (awc w n (knot w y) true) in
  let tst r := nzcv (Z.testbit r (w - 1)) (r =? 0) false false in
  let cc f := if cond_holds (a_cond i) g then f
              else nzcv (Z.testbit (a_nzcv i) 3) (Z.testbit (a_nzcv i) 2) (Z.testbit (a_nzcv i) 1) (Z.testbit (a_nzcv i) 0) in
  match a_op i with
  | A_TST_IMM => Some (tst (Z.land n imm))
  | A_TST_SHIFTED => Some (tst (Z.land n sh))
  | A_CMN_IMM => Some (add imm)
  | A_CMN_SHIFTED => Some (add sh)
  | A_CMN_EXT => Some (add ex)
  | A_CMP_IMM => Some (sub imm)
  | A_CMP_SHIFTED => Some (sub sh)
  | A_CMP_EXT => Some (sub ex)
  | A_CCMN_REG => Some (cc (add m))
  | A_CCMN_IMM => Some (cc (add imm))
  | A_CCMP_REG => Some (cc (sub m))
  | A_CCMP_IMM => Some (cc (sub imm))
  | _ => None
  end.

(** Branches without calls and returns: the next PC. *)
Definition kbr (i : ainst) (g : kst) : option Z :=
  let w := if a_w32 i then 32 else 64 in
  let if_ (b : bool) := Some (if b then k_pc g + a_off i else k_pc g + 4) in
  let t := rdx g (a_rd i) w in
  match a_op i with
  | A_B => Some (k_pc g + a_off i)
  | A_BR => Some (rdx g (a_rn i) 64)
  | A_BCOND => if_ (cond_holds (a_cond i) g)
  | A_CBZ => if_ (t =? 0)
  | A_CBNZ => if_ (negb (t =? 0))
  | A_TBZ => if_ (negb (Z.testbit t (a_bit i)))
  | A_TBNZ => if_ (Z.testbit t (a_bit i))
  | _ => None
  end.
(** Calls and returns: with [clob] (call-ret-clobber-flags) the flags become unspecified. *)
Definition kcall (clob : bool) (i : ainst) (g : kst) : option kst :=
  let g1 := if clob then wrf g (fun _ => None) else g in
  match a_op i with
  | A_BL => Some (wrpc (wrx g1 (RX 30) 64 (k_pc g + 4)) (k_pc g + a_off i))
  | A_BLR => Some (wrpc (wrx g1 (RX 30) 64 (k_pc g + 4)) (rdx g (a_rn i) 64))
  | A_RET => Some (wrpc g1 (rdx g (a_rn i) 64))
  | _ => None
  end.

(** Addresses of loads and stores, and base register writeback. *)
Definition kaddr (i : ainst) (g : kst) : Z :=
  let b := rdx g (a_rn i) 64 in
  U 64 match a_mode i with
  | AM_SIMPLE | AM_POST => b
  | AM_OFF_IMM => b + a_off i
  | AM_OFF_REG => b + rdx g (a_rm i) 64 * 2^(a_amt i)
  | AM_OFF_EXT => b + (if ext_uns (a_ext i) then U 32 (rdx g (a_rm i) 64) else S_ 32 (rdx g (a_rm i) 64)) * 2^(a_lsl i)
  | AM_PRE => b + a_imm i
  | AM_LITERAL => k_pc g + a_off i
  end.
Definition kwb (i : ainst) (g : kst) : kst :=
  match a_mode i with
  | AM_PRE | AM_POST => wrx g (a_rn i) 64 (rdx g (a_rn i) 64 + a_imm i)
  | _ => g
  end.
Definition fsz_bytes (z : fsz) : Z := match z with FSZ_B => 1 | FSZ_H => 2 | FSZ_S => 4 | FSZ_D => 8 | FSZ_Q => 16 end.
Definition kmem (i : ainst) (g : kst) : option kst :=
  let w := if a_w32 i then 32 else 64 in
  let ad := kaddr i g in
  let n := ext_len (a_mext i) / 8 in
  let fn := fsz_bytes (a_fsz i) in
  let ld k := let v := rd_mem (k_m g) (ad + k) (Z.to_nat n) in if ext_uns (a_mext i) then v else S_ (8 * n) v in
  let st_ m r k := wr_mem m (ad + k) (Z.to_nat n) (rdx g r w) in
  let ldf k := rd_mem (k_m g) (ad + k) (Z.to_nat fn) in
  let stf m r k := wr_mem m (ad + k) (Z.to_nat fn) (k_q g r) in
  let g1 := kwb i g in
  match a_op i with
  | A_LDR | A_LDXR => Some (wrx g1 (a_rd i) w (ld 0))
  | A_LDP | A_LDXP => Some (wrx (wrx g1 (a_rd i) w (ld 0)) (a_rt2 i) w (ld n))
  | A_STR => Some (wrm g1 (st_ (k_m g) (a_rd i) 0))
  | A_STP => Some (wrm g1 (st_ (st_ (k_m g) (a_rd i) 0) (a_rt2 i) n))
  (* store-exclusive: the successful case *)
  | A_STXR => Some (wrx (wrm g1 (st_ (k_m g) (a_rd i) 0)) (a_rs i) 32 0)
  | A_STXP => Some (wrx (wrm g1 (st_ (st_ (k_m g) (a_rd i) 0) (a_rt2 i) n)) (a_rs i) 32 0)
  | A_LDR_FP => Some (wrq g1 (a_vd i) (ldf 0))
  | A_LDP_FP => Some (wrq (wrq g1 (a_vd i) (ldf 0)) (a_vt2 i) (ldf fn))
  | A_STR_FP => Some (wrm g1 (stf (k_m g) (a_vd i) 0))
  | A_STP_FP => Some (wrm g1 (stf (stf (k_m g) (a_vd i) 0) (a_vt2 i) fn))
  | _ => None
  end.

(** System instructions and register moves between the two register files. *)
Definition ksys (i : ainst) (g : kst) : option kst :=
  let t := rdx g (a_rd i) 64 in
  let w := if a_w32 i then 32 else 64 in
  let fb := 8 * fsz_bytes (a_fsz i) in
  match a_op i with
  | A_HINT | A_DMB => Some g
  | A_CFINV => Some (wrf g (fun f => match f with fC => Some (negb (fl g fC)) | _ => k_f g f end))
  | A_MSR_REG =>
    if a_imm i =? 0xde82 then Some (wrtp g t)
    else if a_imm i =? 0xda10 then Some (wrf g (nzcv (Z.testbit t 31) (Z.testbit t 30) (Z.testbit t 29) (Z.testbit t 28)))
    else None
  | A_MRS =>
    if a_imm i =? 0xde82 then Some (wrx g (a_rd i) 64 (k_tp g))
    else if a_imm i =? 0xda10 then
      Some (wrx g (a_rd i) 64 (bool_z (fl g fN) * 2^31 + bool_z (fl g fZ) * 2^30 + bool_z (fl g fC) * 2^29 + bool_z (fl g fV) * 2^28))
    else None
  | A_SYS =>
    if a_imm i =? 0x1ba1 then
      Some (wrm g (fun x => if (U 64 (x - (t - t mod 64)) <? 64) && (0 <=? x) && (x <? 2^64) then 0 else k_m g x))
    else None
  | A_FCSEL => Some (wrq g (a_vd i) (U fb (if cond_holds (a_cond i) g then k_q g (a_vn i) else k_q g (a_vm i))))
  | A_FMOV_REG => Some (wrq g (a_vd i) (U fb (k_q g (a_vn i))))
  | A_FMOV_VEC2GPR => Some (wrx g (a_rd i) w (U fb (k_q g (a_vn i))))
  | A_FMOV_GPR2VEC => Some (wrq g (a_vd i) (U fb (rdx g (a_rn i) w)))
  | A_FMOV_TOP2GPR => Some (wrx g (a_rd i) 64 (k_q g (a_vn i) / 2^64))
  | A_FMOV_GPR2TOP => Some (wrq g (a_vd i) (U 64 (k_q g (a_vd i)) + rdx g (a_rn i) 64 * 2^64))
  | _ => None
  end.
