(** Independent specification of the SSE instructions of X86Sse.v (Intel SDM
    volume 2). Registers are 128-bit numbers; a result is given lane by lane with
    [vec]. Nothing here refers to the lifter, to LLVM-IR vectors or to Bits.v;
    floating-point arithmetic is the uninterpreted [fpu_op] of IR.v. *)

From Coq Require Import ZArith List Bool.
From Verif Require Import Bits IR Rv64Spec X86 X86Spec X86Sse.
Import ListNotations.
Open Scope Z_scope.

(** Guest state with the sixteen XMM registers. *)
Record zst := Zst { z_x : xst; z_q : Z -> Z }.
Definition set_x (g : zst) (x : xst) : zst := Zst x (z_q g).
Definition set_q (g : zst) (n v : Z) : zst := Zst (z_x g) (fun k => if k =? n then v else z_q g k).

(** Lane [k] of width [w]; the number whose first [n] lanes are [f 0 ..]. *)
Definition Ln (w z k : Z) : Z := (z / 2 ^ (w * k)) mod 2 ^ w.
Fixpoint vec (w : Z) (f : Z -> Z) (n : nat) : Z :=
  match n with
  | O => 0
  | S n' => vec w f n' + f (Z.of_nat n') * 2 ^ (w * Z.of_nat n')
  end.
(** All 128 bits. *)
Definition v128 (w : Z) (f : Z -> Z) : Z := vec w f (Z.to_nat (128 / w)).
(** Lanes that may be undefined. *)
Fixpoint ovec (w : Z) (f : Z -> option Z) (n : nat) : option Z :=
  match n with
  | O => Some 0
  | S n' => match ovec w f n', f (Z.of_nat n') with
            | Some a, Some b => Some (a + b * 2 ^ (w * Z.of_nat n'))
            | _, _ => None
            end
  end.
Definition o128 (w : Z) (f : Z -> option Z) : option Z := ovec w f (Z.to_nat (128 / w)).
(** Low [w] bits replaced. *)
Definition low (w a v : Z) : Z := a - a mod 2 ^ w + v mod 2 ^ w.
Definition clamp (lo hi x : Z) : Z := Z.max lo (Z.min hi x).
(** Signed and unsigned saturation to [w] bits. *)
Definition ssat (w x : Z) : Z := U w (clamp (- 2 ^ (w - 1)) (2 ^ (w - 1) - 1) x).
Definition usat (w x : Z) : Z := clamp 0 (2 ^ w - 1) x.
Definition ones (w : Z) : Z := 2 ^ w - 1.
Definition mask_if (w : Z) (b : bool) : Z := if b then ones w else 0.

(** Interleave the low ([h] = 0) or high ([h] = 1) halves. *)
Definition unpack (w h a b : Z) : Z :=
  v128 w (fun k => Ln w (if Z.even k then a else b) (h * (64 / w) + k / 2)).
(** Lane-wise operation; horizontal operation on adjacent pairs of [a], then [b]. *)
Definition lanes2 (w : Z) (f : Z -> Z -> Z) (a b : Z) : Z := v128 w (fun k => U w (f (Ln w a k) (Ln w b k))).
Definition hpair (w : Z) (f : Z -> Z -> Z) (a b : Z) : Z :=
  v128 w (fun k => let s := if k <? 64 / w then a else b in
                   let j := if k <? 64 / w then k else k - 64 / w in
                   U w (f (Ln w s (2 * j)) (Ln w s (2 * j + 1)))).
(** Signed lane-wise operations. *)
Definition slanes (w : Z) (f : Z -> Z -> Z) (a b : Z) : Z := lanes2 w (fun x y => f (S_ w x) (S_ w y)) a b.
(** Narrow the lanes of [a] then [b] with [f]. *)
Definition packv (w : Z) (f : Z -> Z) (a b : Z) : Z :=
  v128 (w / 2) (fun k => f (S_ w (Ln w (if k <? 128 / w then a else b) (k mod (128 / w))))).
(** Element shifts by a 64-bit count. *)
Definition eshift (w n b : Z) (f : Z -> Z) (big : Z -> Z) (a : Z) : Z :=
  v128 w (fun k => if b <? n then f (Ln w a k) else big (Ln w a k)).

(** The sum of absolute differences of eight byte pairs starting at byte [j]. *)
Definition sad8 (a b j : Z) : Z :=
  fold_right (fun i acc => Z.abs (Ln 8 a (j + i) - Ln 8 b (j + i)) + acc) 0 [0; 1; 2; 3; 4; 5; 6; 7].

Section Spec.
Context `{FpuOps}.
(** The result of comparing two patterns; [None] is unordered. *)
Variable rel : ty -> Z -> Z -> option comparison.

Definition fw_ (t : ty) : Z := match t with TF32 => 32 | TF64 => 64 | TInt w => w | _ => 0 end.
Definition fop (f : fpname) (s t : ty) (l : list Z) : option Z :=
  match fpu_op f s t l with Some z => Some (U (fw_ t) z) | None => None end.
(** Packed, scalar and horizontal floating-point operations of type [t]. *)
Definition fpk (f : fpname) (t : ty) (a b : Z) : option Z :=
  o128 (fw_ t) (fun k => fop f t t [Ln (fw_ t) a k; Ln (fw_ t) b k]).
Definition fsc (f : fpname) (t : ty) (a b : Z) : option Z :=
  option_map (low (fw_ t) a) (fop f t t [U (fw_ t) a; U (fw_ t) b]).
Definition fhz (f : fpname) (t : ty) (a b : Z) : option Z :=
  let w := fw_ t in
  o128 w (fun k => let s := if k <? 64 / w then a else b in
                   let j := if k <? 64 / w then k else k - 64 / w in
                   fop f t t [Ln w s (2 * j); Ln w s (2 * j + 1)]).
Definition addsub (t : ty) (a b : Z) : option Z :=
  o128 (fw_ t) (fun k => fop (if Z.even k then FSub else FAdd) t t [Ln (fw_ t) a k; Ln (fw_ t) b k]).
(** MINxx/MAXxx: the second operand unless the first is strictly smaller
    (greater); so also for NaN and for zeros of either sign. *)
Definition fminmax (want : comparison) (t : ty) (x y : Z) : Z :=
  match rel t x y, want with Some Lt, Lt | Some Gt, Gt => x | _, _ => y end.
(** CMPxx predicates 0..7. *)
Definition fpred (p : Z) (r : option comparison) : bool :=
  let eq := match r with Some Eq => true | _ => false end in
  let lt := match r with Some Lt => true | _ => false end in
  let un := match r with None => true | _ => false end in
  if p =? 0 then eq else if p =? 1 then lt else if p =? 2 then lt || eq else if p =? 3 then un
  else if p =? 4 then negb eq else if p =? 5 then negb lt else if p =? 6 then negb (lt || eq) else negb un.
Definition fcmpk (t : ty) (p a b : Z) : option Z :=
  if p <? 8 then Some (v128 (fw_ t) (fun k => mask_if (fw_ t) (fpred p (rel t (Ln (fw_ t) a k) (Ln (fw_ t) b k))))) else None.
Definition fcmps (t : ty) (p a b : Z) : option Z :=
  if p <? 8 then Some (low (fw_ t) a (mask_if (fw_ t) (fpred p (rel t (U (fw_ t) a) (U (fw_ t) b))))) else None.
(** Truncating conversion; one that does not fit gives the integer indefinite value. *)
Definition cvtt (t : ty) (w b : Z) : Z :=
  match fop FToSI t (TInt w) [U (fw_ t) b] with Some v => v | None => 2 ^ (w - 1) end.

(** New value of an XMM destination holding [a]. [b]: the source (an XMM
    register, or a memory or general-purpose operand zero-extended), [mem]: it is
    a memory operand, [imm]: the immediate byte, [w1]: size of the source. *)
Definition sse_fn (m : smn) (mem : bool) (w1 imm a b : Z) : option Z :=
  match m with
  | S_MOVD => Some (U 32 b)
  | S_MOVQ => Some (U 64 b)
  | S_MOVSS => Some (if mem then U 32 b else low 32 a b)
  | S_MOVSD => Some (if mem then U 64 b else low 64 a b)
  | S_MOVUPS | S_MOVUPD | S_MOVAPS | S_MOVAPD | S_MOVDQU | S_MOVDQA | S_LDDQU | S_MOVNTDQA => Some b
  | S_MOVLPS | S_MOVLPD => Some (low 64 a b)
  | S_MOVHLPS => Some (low 64 a (Ln 64 b 1))
  | S_MOVHPS | S_MOVLHPS | S_MOVHPD => Some (U 64 a + U 64 b * 2 ^ 64)
  | S_PUNPCKLBW => Some (unpack 8 0 a b) | S_PUNPCKLWD => Some (unpack 16 0 a b)
  | S_PUNPCKLDQ | S_UNPCKLPS => Some (unpack 32 0 a b) | S_PUNPCKLQDQ | S_UNPCKLPD => Some (unpack 64 0 a b)
  | S_PUNPCKHBW => Some (unpack 8 1 a b) | S_PUNPCKHWD => Some (unpack 16 1 a b)
  | S_PUNPCKHDQ | S_UNPCKHPS => Some (unpack 32 1 a b) | S_PUNPCKHQDQ | S_UNPCKHPD => Some (unpack 64 1 a b)
  | S_SHUFPD => Some (v128 64 (fun k => Ln 64 (if k =? 0 then a else b) ((imm / 2 ^ k) mod 2)))
  | S_SHUFPS => Some (v128 32 (fun k => Ln 32 (if k <? 2 then a else b) ((imm / 4 ^ k) mod 4)))
  | S_PSHUFD => Some (v128 32 (fun k => Ln 32 b ((imm / 4 ^ k) mod 4)))
  | S_PSHUFLW => Some (v128 16 (fun k => if k <? 4 then Ln 16 b ((imm / 4 ^ k) mod 4) else Ln 16 b k))
  | S_PSHUFHW => Some (v128 16 (fun k => if k <? 4 then Ln 16 b k else Ln 16 b (4 + (imm / 4 ^ (k - 4)) mod 4)))
  | S_INSERTPS =>
    let e := Ln 32 b (if mem then 0 else (imm / 64) mod 4) in
    Some (v128 32 (fun k => if Z.odd (imm / 2 ^ k) then 0 else if k =? (imm / 16) mod 4 then e else Ln 32 a k))
  | S_MOVSLDUP => Some (v128 32 (fun k => Ln 32 b (k - k mod 2)))
  | S_MOVSHDUP => Some (v128 32 (fun k => Ln 32 b (k - k mod 2 + 1)))
  | S_MOVDDUP => Some (v128 64 (fun _ => Ln 64 b 0))
  | S_ADDSS => fsc FAdd TF32 a b | S_ADDSD => fsc FAdd TF64 a b
  | S_ADDPS => fpk FAdd TF32 a b | S_ADDPD => fpk FAdd TF64 a b
  | S_SUBSS => fsc FSub TF32 a b | S_SUBSD => fsc FSub TF64 a b
  | S_SUBPS => fpk FSub TF32 a b | S_SUBPD => fpk FSub TF64 a b
  | S_MULSS => fsc FMul TF32 a b | S_MULSD => fsc FMul TF64 a b
  | S_MULPS => fpk FMul TF32 a b | S_MULPD => fpk FMul TF64 a b
  | S_DIVSS => fsc FDiv TF32 a b | S_DIVSD => fsc FDiv TF64 a b
  | S_DIVPS => fpk FDiv TF32 a b | S_DIVPD => fpk FDiv TF64 a b
  | S_ADDSUBPS => addsub TF32 a b | S_ADDSUBPD => addsub TF64 a b
  | S_HADDPS => fhz FAdd TF32 a b | S_HADDPD => fhz FAdd TF64 a b
  | S_HSUBPS => fhz FSub TF32 a b | S_HSUBPD => fhz FSub TF64 a b
  | S_MINSS => Some (low 32 a (fminmax Lt TF32 (U 32 a) (U 32 b)))
  | S_MINSD => Some (low 64 a (fminmax Lt TF64 (U 64 a) (U 64 b)))
  | S_MAXSS => Some (low 32 a (fminmax Gt TF32 (U 32 a) (U 32 b)))
  | S_MAXSD => Some (low 64 a (fminmax Gt TF64 (U 64 a) (U 64 b)))
  | S_MINPS => Some (lanes2 32 (fminmax Lt TF32) a b) | S_MINPD => Some (lanes2 64 (fminmax Lt TF64) a b)
  | S_MAXPS => Some (lanes2 32 (fminmax Gt TF32) a b) | S_MAXPD => Some (lanes2 64 (fminmax Gt TF64) a b)
  | S_ORPS | S_ORPD | S_POR => Some (Z.lor a b)
  | S_ANDPS | S_ANDPD | S_PAND => Some (Z.land a b)
  | S_XORPS | S_XORPD | S_PXOR => Some (Z.lxor a b)
  | S_ANDNPS | S_ANDNPD | S_PANDN => Some (Z.land (ones 128 - a) b)
  | S_CMPSS => fcmps TF32 imm a b | S_CMPSD => fcmps TF64 imm a b
  | S_CMPPS => fcmpk TF32 imm a b | S_CMPPD => fcmpk TF64 imm a b
  | S_SQRTSS => option_map (low 32 a) (fop FSqrt TF32 TF32 [U 32 b])
  | S_SQRTSD => option_map (low 64 a) (fop FSqrt TF64 TF64 [U 64 b])
  | S_SQRTPS => o128 32 (fun k => fop FSqrt TF32 TF32 [Ln 32 b k])
  | S_SQRTPD => o128 64 (fun k => fop FSqrt TF64 TF64 [Ln 64 b k])
  | S_CVTDQ2PD => o128 64 (fun k => fop FSIToFP (TInt 32) TF64 [Ln 32 b k])
  | S_CVTDQ2PS => o128 32 (fun k => fop FSIToFP (TInt 32) TF32 [Ln 32 b k])
  | S_CVTTPD2DQ => Some (vec 32 (fun k => cvtt TF64 32 (Ln 64 b k)) 2)
  | S_CVTTPS2DQ => Some (v128 32 (fun k => cvtt TF32 32 (Ln 32 b k)))
  | S_CVTPD2PS => ovec 32 (fun k => fop FTrunc TF64 TF32 [Ln 64 b k]) 2
  | S_CVTPS2PD => o128 64 (fun k => fop FExt TF32 TF64 [Ln 32 b k])
  | S_CVTSD2SS => option_map (low 32 a) (fop FTrunc TF64 TF32 [U 64 b])
  | S_CVTSS2SD => option_map (low 64 a) (fop FExt TF32 TF64 [U 32 b])
  | S_CVTSI2SD => option_map (low 64 a) (fop FSIToFP (TInt w1) TF64 [U w1 b])
  | S_CVTSI2SS => option_map (low 32 a) (fop FSIToFP (TInt w1) TF32 [U w1 b])
  | S_PADDB => Some (lanes2 8 Z.add a b) | S_PADDW => Some (lanes2 16 Z.add a b)
  | S_PADDD => Some (lanes2 32 Z.add a b) | S_PADDQ => Some (lanes2 64 Z.add a b)
  | S_PSUBB => Some (lanes2 8 Z.sub a b) | S_PSUBW => Some (lanes2 16 Z.sub a b)
  | S_PSUBD => Some (lanes2 32 Z.sub a b) | S_PSUBQ => Some (lanes2 64 Z.sub a b)
  | S_PHADDW => Some (hpair 16 Z.add a b) | S_PHADDD => Some (hpair 32 Z.add a b)
  | S_PHSUBW => Some (hpair 16 Z.sub a b) | S_PHSUBD => Some (hpair 32 Z.sub a b)
  | S_PADDSB => Some (lanes2 8 (fun x y => ssat 8 (S_ 8 x + S_ 8 y)) a b)
  | S_PADDSW => Some (lanes2 16 (fun x y => ssat 16 (S_ 16 x + S_ 16 y)) a b)
  | S_PADDUSB => Some (lanes2 8 (fun x y => usat 8 (x + y)) a b)
  | S_PADDUSW => Some (lanes2 16 (fun x y => usat 16 (x + y)) a b)
  | S_PSUBSB => Some (lanes2 8 (fun x y => ssat 8 (S_ 8 x - S_ 8 y)) a b)
  | S_PSUBSW => Some (lanes2 16 (fun x y => ssat 16 (S_ 16 x - S_ 16 y)) a b)
  | S_PSUBUSB => Some (lanes2 8 (fun x y => usat 8 (x - y)) a b)
  | S_PSUBUSW => Some (lanes2 16 (fun x y => usat 16 (x - y)) a b)
  | S_PHADDSW => Some (hpair 16 (fun x y => ssat 16 (S_ 16 x + S_ 16 y)) a b)
  | S_PHSUBSW => Some (hpair 16 (fun x y => ssat 16 (S_ 16 x - S_ 16 y)) a b)
  | S_PSADBW => Some (sad8 a b 0 + sad8 a b 8 * 2 ^ 64)
  | S_PMADDUBSW =>
    Some (v128 16 (fun k => ssat 16 (Ln 8 a (2 * k) * S_ 8 (Ln 8 b (2 * k)) + Ln 8 a (2 * k + 1) * S_ 8 (Ln 8 b (2 * k + 1)))))
  | S_PMULLW => Some (lanes2 16 Z.mul a b) | S_PMULLD => Some (lanes2 32 Z.mul a b)
  | S_PSLLW => Some (eshift 16 16 (U 64 b) (fun x => U 16 (x * 2 ^ U 64 b)) (fun _ => 0) a)
  | S_PSLLD => Some (eshift 32 32 (U 64 b) (fun x => U 32 (x * 2 ^ U 64 b)) (fun _ => 0) a)
  | S_PSLLQ => Some (eshift 64 64 (U 64 b) (fun x => U 64 (x * 2 ^ U 64 b)) (fun _ => 0) a)
  | S_PSRLW => Some (eshift 16 16 (U 64 b) (fun x => x / 2 ^ U 64 b) (fun _ => 0) a)
  | S_PSRLD => Some (eshift 32 32 (U 64 b) (fun x => x / 2 ^ U 64 b) (fun _ => 0) a)
  | S_PSRLQ => Some (eshift 64 64 (U 64 b) (fun x => x / 2 ^ U 64 b) (fun _ => 0) a)
  | S_PSRAW => Some (eshift 16 16 (U 64 b) (fun x => U 16 (S_ 16 x / 2 ^ U 64 b)) (fun x => mask_if 16 (S_ 16 x <? 0)) a)
  | S_PSRAD => Some (eshift 32 32 (U 64 b) (fun x => U 32 (S_ 32 x / 2 ^ U 64 b)) (fun x => mask_if 32 (S_ 32 x <? 0)) a)
  | S_PSLLDQ => Some (if U 8 b <? 16 then U 128 (a * 2 ^ (8 * U 8 b)) else 0)
  | S_PSRLDQ => Some (if U 8 b <? 16 then a / 2 ^ (8 * U 8 b) else 0)
  | S_PALIGNR => Some (U 128 ((a * 2 ^ 128 + b) / 2 ^ (8 * imm)))
  | S_PACKSSWB => Some (packv 16 (ssat 8) a b) | S_PACKSSDW => Some (packv 32 (ssat 16) a b)
  | S_PACKUSWB => Some (packv 16 (usat 8) a b) | S_PACKUSDW => Some (packv 32 (usat 16) a b)
  | S_PINSRB => Some (v128 8 (fun k => if k =? imm mod 16 then U 8 b else Ln 8 a k))
  | S_PINSRW => Some (v128 16 (fun k => if k =? imm mod 8 then U 16 b else Ln 16 a k))
  | S_PINSRD => Some (v128 32 (fun k => if k =? imm mod 4 then U 32 b else Ln 32 a k))
  | S_PINSRQ => Some (v128 64 (fun k => if k =? imm mod 2 then U 64 b else Ln 64 a k))
  | S_PAVGB => Some (lanes2 8 (fun x y => (x + y + 1) / 2) a b)
  | S_PAVGW => Some (lanes2 16 (fun x y => (x + y + 1) / 2) a b)
  | S_PMULHW => Some (lanes2 16 (fun x y => (S_ 16 x * S_ 16 y) / 2 ^ 16) a b)
  | S_PMULHUW => Some (lanes2 16 (fun x y => (x * y) / 2 ^ 16) a b)
  | S_PMULDQ => Some (v128 64 (fun k => U 64 (S_ 32 (Ln 32 a (2 * k)) * S_ 32 (Ln 32 b (2 * k)))))
  | S_PMULUDQ => Some (v128 64 (fun k => Ln 32 a (2 * k) * Ln 32 b (2 * k)))
  | S_PMADDWD =>
    Some (v128 32 (fun k => U 32 (S_ 16 (Ln 16 a (2 * k)) * S_ 16 (Ln 16 b (2 * k)) +
                                  S_ 16 (Ln 16 a (2 * k + 1)) * S_ 16 (Ln 16 b (2 * k + 1)))))
  | S_PCMPEQB => Some (lanes2 8 (fun x y => mask_if 8 (x =? y)) a b)
  | S_PCMPEQW => Some (lanes2 16 (fun x y => mask_if 16 (x =? y)) a b)
  | S_PCMPEQD => Some (lanes2 32 (fun x y => mask_if 32 (x =? y)) a b)
  | S_PCMPEQQ => Some (lanes2 64 (fun x y => mask_if 64 (x =? y)) a b)
  | S_PCMPGTB => Some (slanes 8 (fun x y => mask_if 8 (y <? x)) a b)
  | S_PCMPGTW => Some (slanes 16 (fun x y => mask_if 16 (y <? x)) a b)
  | S_PCMPGTD => Some (slanes 32 (fun x y => mask_if 32 (y <? x)) a b)
  | S_PCMPGTQ => Some (slanes 64 (fun x y => mask_if 64 (y <? x)) a b)
  | S_PMINUB => Some (lanes2 8 Z.min a b) | S_PMINUW => Some (lanes2 16 Z.min a b) | S_PMINUD => Some (lanes2 32 Z.min a b)
  | S_PMAXUB => Some (lanes2 8 Z.max a b) | S_PMAXUW => Some (lanes2 16 Z.max a b) | S_PMAXUD => Some (lanes2 32 Z.max a b)
  | S_PMINSB => Some (slanes 8 Z.min a b) | S_PMINSW => Some (slanes 16 Z.min a b) | S_PMINSD => Some (slanes 32 Z.min a b)
  | S_PMAXSB => Some (slanes 8 Z.max a b) | S_PMAXSW => Some (slanes 16 Z.max a b) | S_PMAXSD => Some (slanes 32 Z.max a b)
  | S_PABSB => Some (v128 8 (fun k => Z.abs (S_ 8 (Ln 8 b k))))
  | S_PABSW => Some (v128 16 (fun k => Z.abs (S_ 16 (Ln 16 b k))))
  | S_PABSD => Some (v128 32 (fun k => Z.abs (S_ 32 (Ln 32 b k))))
  | S_PSIGNB => Some (slanes 8 (fun x y => x * Z.sgn y) a b)
  | S_PSIGNW => Some (slanes 16 (fun x y => x * Z.sgn y) a b)
  | S_PSIGND => Some (slanes 32 (fun x y => x * Z.sgn y) a b)
  | S_PMOVSXBW => Some (v128 16 (fun k => U 16 (S_ 8 (Ln 8 b k)))) | S_PMOVSXBD => Some (v128 32 (fun k => U 32 (S_ 8 (Ln 8 b k))))
  | S_PMOVSXBQ => Some (v128 64 (fun k => U 64 (S_ 8 (Ln 8 b k)))) | S_PMOVSXWD => Some (v128 32 (fun k => U 32 (S_ 16 (Ln 16 b k))))
  | S_PMOVSXWQ => Some (v128 64 (fun k => U 64 (S_ 16 (Ln 16 b k)))) | S_PMOVSXDQ => Some (v128 64 (fun k => U 64 (S_ 32 (Ln 32 b k))))
  | S_PMOVZXBW => Some (v128 16 (Ln 8 b)) | S_PMOVZXBD => Some (v128 32 (Ln 8 b)) | S_PMOVZXBQ => Some (v128 64 (Ln 8 b))
  | S_PMOVZXWD => Some (v128 32 (Ln 16 b)) | S_PMOVZXWQ => Some (v128 64 (Ln 16 b)) | S_PMOVZXDQ => Some (v128 64 (Ln 32 b))
  | _ => None
  end.

(** Sign bits of the lanes as a number. *)
Definition signs (w b : Z) : Z := vec 1 (fun k => if S_ w (Ln w b k) <? 0 then 1 else 0) (Z.to_nat (128 / w)).
(** Width and value written to a memory or (zero-extended) general-purpose
    destination of size [w0] from the XMM register value [b]. *)
Definition sse_out (m : smn) (w0 imm b : Z) : option (Z * Z) :=
  match m with
  | S_MOVD | S_MOVSS => Some (32, U 32 b)
  | S_MOVQ | S_MOVSD | S_MOVLPS | S_MOVLPD => Some (64, U 64 b)
  | S_MOVUPS | S_MOVUPD | S_MOVAPS | S_MOVAPD | S_MOVDQU | S_MOVDQA | S_MOVNTPS | S_MOVNTPD | S_MOVNTDQ => Some (128, b)
  | S_MOVHPS | S_MOVHPD => Some (64, Ln 64 b 1)
  | S_PEXTRB => Some (8, Ln 8 b (imm mod 16)) | S_PEXTRW => Some (16, Ln 16 b (imm mod 8))
  | S_PEXTRD | S_EXTRACTPS => Some (32, Ln 32 b (imm mod 4)) | S_PEXTRQ => Some (64, Ln 64 b (imm mod 2))
  | S_PMOVMSKB => Some (64, signs 8 b) | S_MOVMSKPS => Some (64, signs 32 b) | S_MOVMSKPD => Some (64, signs 64 b)
  | S_CVTTSD2SI => Some (w0, cvtt TF64 w0 b) | S_CVTTSS2SI => Some (w0, cvtt TF32 w0 b)
  | _ => None
  end.
(** [U]COMISx: unordered sets ZF, PF and CF; OF, SF and AF are cleared. *)
Definition comis_ty (m : smn) : option ty :=
  match m with S_COMISS | S_UCOMISS => Some TF32 | S_COMISD | S_UCOMISD => Some TF64 | _ => None end.
Definition comis_flags (r : option comparison) (g : xst) : xst :=
  set_f g (fun f => match f with
    | fZF => Some (match r with None | Some Eq => true | _ => false end)
    | fPF => Some (match r with None => true | _ => false end)
    | fCF => Some (match r with None | Some Lt => true | _ => false end)
    | fDF => y_f g fDF
    | _ => Some false
    end).

(** Operand values. *)
Definition s_val (g : zst) (o : sop) : Z :=
  match o with
  | QX _ n => z_q g n
  | QG _ r => y_r (z_x g) r
  | QM w m => rd_mem (y_m (z_x g)) (ea (z_x g) m) (Z.to_nat (w / 8))
  | QI _ v => U 8 v
  | QN => 0
  end.
(** 16-byte memory operands must be aligned, except for the unaligned moves. *)
Definition unaligned (m : smn) : bool :=
  match m with S_MOVUPS | S_MOVUPD | S_MOVDQU | S_LDDQU => true | _ => false end.
Definition s_aligned (m : smn) (g : zst) (o : sop) : bool :=
  match o with
  | QM w a => negb (w =? 128) || unaligned m || (ea (z_x g) a mod 16 =? 0)
  | _ => true
  end.

Definition s_isa (i : sinst) (g : zst) : option zst :=
  let m := i_mn i in
  if s_aligned m g (i_op0 i) && s_aligned m g (i_op1 i) then
    match comis_ty m with
    | Some t => Some (set_x g (comis_flags (rel t (U (fw_ t) (s_val g (i_op0 i))) (U (fw_ t) (s_val g (i_op1 i)))) (z_x g)))
    | None =>
      let imm := U 8 (q_imm (i_op2 i)) in
      let b := s_val g (i_op1 i) in
      match i_op0 i with
      | QX _ d => option_map (set_q g d) (sse_fn m (q_ismem (i_op1 i)) (q_bits (i_op1 i)) imm (z_q g d) b)
      | QG w0 r => option_map (fun p => set_x g (wr_reg (z_x g) 64 r (snd p))) (sse_out m w0 imm b)
      | QM w0 a =>
        option_map (fun p => set_x g (set_m (z_x g) (wr_mem (y_m (z_x g)) (ea (z_x g) a) (Z.to_nat (fst p / 8)) (snd p))))
                   (sse_out m w0 imm b)
      | _ => None
      end
    end
  else None.
Definition s_spec (i : sinst) (g : zst) : option zst :=
  s_isa i (set_x g (set_ip (z_x g) (y_ip (z_x g) + i_len i))).
End Spec.

(** ** Operand shapes the decoder delivers

    Register operands carry any size where the lifter does not look at it, and
    all 128 bits for packed instructions. *)
Definition s_okx (o : sop) : bool := match o with QX _ n => okr n | _ => false end.
Definition s_okx128 (o : sop) : bool := match o with QX w n => (w =? 128) && okr n | _ => false end.
Definition s_okg (o : sop) : bool := match o with QG _ r => okr r | _ => false end.
Definition s_okgw (w : Z) (o : sop) : bool := match o with QG w' r => (w' =? w) && okr r | _ => false end.
Definition s_okm (w : Z) (o : sop) : bool := match o with QM w' m => (w' =? w) && wf_mem m | _ => false end.
Definition s_oki (o : sop) : bool := match o with QI _ v => (-128 <=? v) && (v <? 256) | _ => false end.

(** Memory operand size of the instructions "xmm, xmm/mem". *)
Definition rm_bits (m : smn) : Z :=
  match m with
  | S_MOVSS | S_ADDSS | S_SUBSS | S_MULSS | S_DIVSS | S_MINSS | S_MAXSS | S_SQRTSS | S_CMPSS | S_COMISS | S_UCOMISS
  | S_CVTSS2SD | S_INSERTPS | S_PMOVSXBD | S_PMOVSXWQ | S_PMOVZXBD | S_PMOVZXWQ => 32
  | S_MOVSD | S_ADDSD | S_SUBSD | S_MULSD | S_DIVSD | S_MINSD | S_MAXSD | S_SQRTSD | S_CMPSD | S_COMISD | S_UCOMISD
  | S_CVTSD2SS | S_CVTDQ2PD | S_CVTPS2PD | S_MOVDDUP
  | S_PMOVSXBW | S_PMOVSXWD | S_PMOVSXDQ | S_PMOVZXBW | S_PMOVZXWD | S_PMOVZXDQ => 64
  | S_PMOVSXBQ | S_PMOVZXBQ => 16
  | _ => 128
  end.
Definition has_imm (m : smn) : bool :=
  match m with
  | S_SHUFPD | S_SHUFPS | S_PSHUFD | S_PSHUFLW | S_PSHUFHW | S_INSERTPS | S_EXTRACTPS | S_PALIGNR
  | S_CMPSS | S_CMPSD | S_CMPPS | S_CMPPD
  | S_PINSRB | S_PINSRW | S_PINSRD | S_PINSRQ | S_PEXTRB | S_PEXTRW | S_PEXTRD | S_PEXTRQ => true
  | _ => false
  end.
Definition s_shape (i : sinst) : bool :=
  let o0 := i_op0 i in let o1 := i_op1 i in
  match i_mn i with
  | S_FXSAVE | S_FXRSTOR | S_FSTCW | S_FLDCW | S_FSTSW | S_STMXCSR | S_LDMXCSR => false
  | S_MOVD => s_okx o0 && (s_okg o1 || s_okm 32 o1) || (s_okgw 32 o0 || s_okm 32 o0) && s_okx o1
  | S_MOVQ => s_okx o0 && (s_okg o1 || s_okm 64 o1 || s_okx o1) || (s_okgw 64 o0 || s_okm 64 o0) && s_okx o1
  | S_MOVSS | S_MOVSD => s_okx o0 && (s_okx o1 || s_okm (rm_bits (i_mn i)) o1) || s_okm (rm_bits (i_mn i)) o0 && s_okx o1
  | S_MOVUPS | S_MOVUPD | S_MOVAPS | S_MOVAPD | S_MOVDQU | S_MOVDQA =>
    s_okx o0 && (s_okx o1 || s_okm 128 o1) || s_okm 128 o0 && s_okx o1
  | S_LDDQU | S_MOVNTDQA => s_okx o0 && s_okm 128 o1
  | S_MOVNTPS | S_MOVNTPD | S_MOVNTDQ => s_okm 128 o0 && s_okx128 o1
  | S_MOVLPS | S_MOVLPD | S_MOVHPS | S_MOVHPD => s_okx o0 && s_okm 64 o1 || s_okm 64 o0 && s_okx o1
  | S_MOVHLPS | S_MOVLHPS => s_okx o0 && s_okx o1
  | S_EXTRACTPS | S_PEXTRD => (s_okg o0 || s_okm 32 o0) && s_okx128 o1
  | S_PEXTRB => (s_okg o0 || s_okm 8 o0) && s_okx128 o1
  | S_PEXTRW => (s_okg o0 || s_okm 16 o0) && s_okx128 o1
  | S_PEXTRQ => (s_okg o0 || s_okm 64 o0) && s_okx128 o1
  | S_PINSRB => s_okx128 o0 && (s_okg o1 || s_okm 8 o1)
  | S_PINSRW => s_okx128 o0 && (s_okg o1 || s_okm 16 o1)
  | S_PINSRD => s_okx128 o0 && (s_okg o1 || s_okm 32 o1)
  | S_PINSRQ => s_okx128 o0 && (s_okg o1 || s_okm 64 o1)
  | S_PMOVMSKB | S_MOVMSKPS | S_MOVMSKPD => s_okgw 64 o0 && s_okx128 o1
  | S_CVTTSD2SI => (s_okgw 32 o0 || s_okgw 64 o0) && (s_okx o1 || s_okm 64 o1)
  | S_CVTTSS2SI => (s_okgw 32 o0 || s_okgw 64 o0) && (s_okx o1 || s_okm 32 o1)
  | S_CVTSI2SD | S_CVTSI2SS => s_okx o0 && (s_okgw 32 o1 || s_okgw 64 o1 || s_okm 32 o1 || s_okm 64 o1)
  | S_PSLLW | S_PSLLD | S_PSLLQ | S_PSRLW | S_PSRLD | S_PSRLQ | S_PSRAW | S_PSRAD =>
    s_okx128 o0 && (s_okx o1 || s_okm 128 o1 || s_oki o1)
  | S_PSLLDQ | S_PSRLDQ => s_okx o0 && s_oki o1
  | S_MOVDDUP => s_okx o0 && (match o1 with QX w n => ((w =? 64) || (w =? 128)) && okr n | _ => false end || s_okm 64 o1)
  | m => if rm_bits m <? 128 then s_okx o0 && (s_okx o1 || s_okm (rm_bits m) o1)
         else s_okx128 o0 && (s_okx128 o1 || s_okm 128 o1)
  end && (negb (has_imm (i_mn i)) || s_oki (i_op2 i)).
