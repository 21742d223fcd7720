(** Independent specification of the AArch64 SIMD integer and permutation instructions
    (Arm ARM, C7.2), lane by lane over the 128-bit registers of A64Spec.v. Nothing here
    refers to the lifter's functions, to LLVM-IR vectors or to shuffle masks; only the
    instruction record is shared. *)

From Coq Require Import ZArith List Bool.
From Verif Require Import Bits IR Rv64Spec A64Base A64Simd A64 A64Spec X86SseSpec.
Import X86SseSpec(Ln, vec, mask_if).
Import ListNotations.
Open Scope Z_scope.

(** esize, elements, and whether the arrangement fills the register. *)
Definition esize (v : va) : Z :=
  match v with VA_8B | VA_16B => 8 | VA_4H | VA_8H => 16 | VA_2S | VA_4S => 32 | VA_1D | VA_2D => 64 end.
Definition isq (v : va) : bool := match v with VA_16B | VA_8H | VA_4S | VA_2D => true | _ => false end.
Definition elems (v : va) : Z := (if isq v then 128 else 64) / esize v.

Section Spec.
Variable i : vinst.
Variable g : kst.
Let v := v_va i.
Let w := esize v.
(** Scalar forms have one element. *)
Let N := if v_scalar i then 1 else elems v.
Let en := Ln w (k_q g (v_rn i)).
Let em := Ln w (k_q g (v_rm i)).
Let ed := Ln w (k_q g (v_rd i)).
(** Int(x, unsigned). *)
Let s (x : Z) : Z := if v_sgn i then S_ w x else x.
(** A result of [n] lanes of width [w]; the rest of the register is zero. *)
Definition out (w : Z) (n : Z) (f : Z -> Z) : Z := vec w (fun k => U w (f k)) (Z.to_nat n).
Let one (f : Z -> Z) : option Z := Some (out w N f).
(** The operand's part Vpart: the upper half for the "2" forms. *)
Let part (f : Z -> Z) (k : Z) : Z := f (if isq v then 64 / w + k else k).
Let en2 := Ln (2 * w) (k_q g (v_rn i)).
Let ed2 := Ln (2 * w) (k_q g (v_rd i)).
Let long (f : Z -> Z) : option Z := Some (out (2 * w) (64 / w) f).
(** Narrowing results go to the lower or the upper half; the former clears the upper. *)
Let narrow (f : Z -> Z) : option Z :=
  Some (if isq v then out w (128 / w) (fun k => if k <? 64 / w then ed k else f (k - 64 / w)) else out w (64 / w) f).
(** Vm:Vn, lane k. *)
Let cat (k : Z) : Z := if k <? elems v then en k else em (k - elems v).
Let elem := Ln w (k_q g (v_rm i)) (v_imm i).
(** Reverse the order of lanes within containers of [c] bits. *)
Let rev (c : Z) : option Z := let r := c / w in one (fun k => en (k - k mod r + (r - 1 - k mod r))).
(** The byte table of TBL/TBX: consecutive registers, wrapping after V31. *)
Let tbl (j : Z) : Z := Ln 8 (k_q g ((v_rn i + j / 16) mod 32)) (j mod 16).
(** Maximum and minimum of a list of lanes. *)
Fixpoint red (f : Z -> Z -> Z) (e : Z -> Z) (n : nat) : Z :=
  match n with O => e 0 | S n' => f (red f e n') (e (Z.of_nat n)) end.

(** The value written to Vd. *)
Definition vres_int (o : iop) : option Z :=
  match o with
  | V_AND => one (fun k => Z.land (en k) (em k))
  | V_BIC_IMM => one (fun k => Z.land (ed k) (knot w (U w (v_imm i))))
  | V_BIC => one (fun k => Z.land (en k) (knot w (em k)))
  | V_BIF => one (fun k => Z.lor (Z.land (ed k) (em k)) (Z.land (en k) (knot w (em k))))
  | V_BIT => one (fun k => Z.lor (Z.land (en k) (em k)) (Z.land (ed k) (knot w (em k))))
  | V_BSL => one (fun k => Z.lor (Z.land (en k) (ed k)) (Z.land (em k) (knot w (ed k))))
  | V_CLZ => one (fun k => clz (Z.to_nat w) (en k))
  | V_CNT => one (fun k => cpop (Z.to_nat w) (en k))
  | V_EOR => one (fun k => Z.lxor (en k) (em k))
  | V_NOT => one (fun k => knot w (en k))
  | V_ORN => one (fun k => Z.lor (en k) (knot w (em k)))
  | V_ORR_IMM => one (fun k => Z.lor (ed k) (U w (v_imm i)))
  | V_ORR => one (fun k => Z.lor (en k) (em k))
  | V_RBIT => one (fun k => rbit (Z.to_nat w) (en k))
  | V_REV16 => rev 16
  | V_REV32 => rev 32
  | V_REV64 => rev 64
  | V_SHL_IMM => one (fun k => en k * 2 ^ v_imm i)
  | V_SHL_REG => one (fun k => let sh := S_ 8 (U 8 (em k)) in if 0 <=? sh then s (en k) * 2 ^ sh else s (en k) / 2 ^ (- sh))
  | V_SHLL => long (fun k => part (fun k => s (en k)) k * 2 ^ v_imm i)
  | V_SHR => one (fun k => s (en k) / 2 ^ v_imm i)
  | V_SHRN => narrow (fun k => en2 k / 2 ^ v_imm i)
  | V_SRA => one (fun k => ed k + (s (en k) + if v_round i then 2 ^ (v_imm i - 1) else 0) / 2 ^ v_imm i)
  | V_DUP_ELEM => one (fun _ => en (v_imm i))
  | V_DUP_GPR => one (fun _ => rdx g (v_xn i) (bits (v_w32 i)))
  | V_EXT => one (fun k => cat (k + v_imm i))
  | V_INS_ELEM => Some (out w (128 / w) (fun k => if k =? v_dst i then en (v_src i) else ed k))
  | V_INS_GPR => Some (out w (128 / w) (fun k => if k =? v_imm i then rdx g (v_xn i) (bits (v_w32 i)) else ed k))
  | V_MOVI => one (fun _ => v_imm i)
  | V_TBL => one (fun k => if em k <? 16 * v_imm i then tbl (em k) else 0)
  | V_TBX => one (fun k => if em k <? 16 * v_imm i then tbl (em k) else ed k)
  | V_UZP1 => one (fun k => cat (2 * k))
  | V_UZP2 => one (fun k => cat (2 * k + 1))
  | V_XTN => narrow en2
  | V_ZIP1 => one (fun k => (if Z.even k then en else em) (k / 2))
  | V_ZIP2 => one (fun k => (if Z.even k then en else em) (elems v / 2 + k / 2))
  | V_CMEQ => one (fun k => mask_if w (en k =? em k))
  | V_CMEQ_Z => one (fun k => mask_if w (en k =? 0))
  | V_CMGE => one (fun k => mask_if w (S_ w (em k) <=? S_ w (en k)))
  | V_CMGE_Z => one (fun k => mask_if w (0 <=? S_ w (en k)))
  | V_CMGT => one (fun k => mask_if w (S_ w (em k) <? S_ w (en k)))
  | V_CMGT_Z => one (fun k => mask_if w (0 <? S_ w (en k)))
  | V_CMHI => one (fun k => mask_if w (em k <? en k))
  | V_CMHS => one (fun k => mask_if w (em k <=? en k))
  | V_CMLE_Z => one (fun k => mask_if w (S_ w (en k) <=? 0))
  | V_CMLT_Z => one (fun k => mask_if w (S_ w (en k) <? 0))
  | V_CMTST => one (fun k => mask_if w (negb (Z.land (en k) (em k) =? 0)))
  | V_ABS => one (fun k => Z.abs (S_ w (en k)))
  | V_ABD => one (fun k => Z.abs (s (en k) - s (em k)))
  | V_ABA => one (fun k => ed k + Z.abs (s (en k) - s (em k)))
  | V_ABDL => long (fun k => Z.abs (part (fun k => s (en k)) k - part (fun k => s (em k)) k))
  | V_ABAL => long (fun k => ed2 k + Z.abs (part (fun k => s (en k)) k - part (fun k => s (em k)) k))
  | V_NEG => one (fun k => - en k)
  | V_MUL_ELEM => one (fun k => en k * elem)
  | V_MUL => one (fun k => en k * em k)
  | V_MULL_ELEM => long (fun k => part (fun k => s (en k)) k * s elem)
  | V_MULL => long (fun k => part (fun k => s (en k)) k * part (fun k => s (em k)) k)
  | V_MLA_ELEM => one (fun k => ed k + en k * elem)
  | V_MLA => one (fun k => ed k + en k * em k)
  | V_MLS_ELEM => one (fun k => ed k - en k * elem)
  | V_MLS => one (fun k => ed k - en k * em k)
  | V_MLAL_ELEM => long (fun k => ed2 k + part (fun k => s (en k)) k * s elem)
  | V_MLAL => long (fun k => ed2 k + part (fun k => s (en k)) k * part (fun k => s (em k)) k)
  | V_MLSL_ELEM => long (fun k => ed2 k - part (fun k => s (en k)) k * s elem)
  | V_MLSL => long (fun k => ed2 k - part (fun k => s (en k)) k * part (fun k => s (em k)) k)
  | V_ADD => one (fun k => en k + em k)
  | V_ADDL => long (fun k => part (fun k => s (en k)) k + part (fun k => s (em k)) k)
  | V_ADDW => long (fun k => en2 k + part (fun k => s (em k)) k)
  | V_SUB => one (fun k => en k - em k)
  | V_SUBL => long (fun k => part (fun k => s (en k)) k - part (fun k => s (em k)) k)
  | V_SUBW => long (fun k => en2 k - part (fun k => s (em k)) k)
  | V_HADD => one (fun k => (s (en k) + s (em k) + if v_round i then 1 else 0) / 2)
  | V_HSUB => one (fun k => (s (en k) - s (em k)) / 2)
  | V_MAX => one (fun k => Z.max (s (en k)) (s (em k)))
  | V_MIN => one (fun k => Z.min (s (en k)) (s (em k)))
  | V_ADDP => Some (out 64 1 (fun _ => Ln 64 (k_q g (v_rn i)) 0 + Ln 64 (k_q g (v_rn i)) 1))
  | V_ADDP_VEC => one (fun k => cat (2 * k) + cat (2 * k + 1))
  | V_MAXP => one (fun k => Z.max (s (cat (2 * k))) (s (cat (2 * k + 1))))
  | V_MINP => one (fun k => Z.min (s (cat (2 * k))) (s (cat (2 * k + 1))))
  | V_ADDV => Some (out w 1 (fun _ => red Z.add en (Z.to_nat (elems v - 1))))
  | V_ADALP => Some (out (2 * w) (elems v / 2) (fun k => ed2 k + (s (en (2 * k)) + s (en (2 * k + 1)))))
  | V_ADDLP => Some (out (2 * w) (elems v / 2) (fun k => s (en (2 * k)) + s (en (2 * k + 1))))
  | V_MAXV => Some (out w 1 (fun _ => red Z.max (fun k => s (en k)) (Z.to_nat (elems v - 1))))
  | V_MINV => Some (out w 1 (fun _ => red Z.min (fun k => s (en k)) (Z.to_nat (elems v - 1))))
  | V_CLS | V_SMOV | V_UMOV => None
  end.
Definition kint (o : iop) : option kst :=
  match o with
  | V_SMOV => Some (wrx g (v_xd i) (bits (v_w32 i)) (S_ w (en (v_imm i))))
  | V_UMOV => Some (wrx g (v_xd i) (bits (v_w32 i)) (en (v_imm i)))
  | _ => option_map (wrq g (v_rd i)) (vres_int o)
  end.
End Spec.
