(** Independent specification of the AArch64 floating-point instructions (Arm ARM, C7.2
    and the FP functions of the shared pseudocode), single and double precision, with the
    reset value of FPCR (round to nearest, no flush to zero, no default NaN).

    Comparison, sign operations, minimum/maximum and conversion to integers are defined
    exactly on bit patterns. The operations that round to a floating-point value (add,
    subtract, multiply, divide, square root, fused multiply-add, int-to-float and format
    conversions, round to integral, maxNum/minNum) are the uninterpreted IEEE operations
    [fpu_op]. *)

From Coq Require Import ZArith List Bool.
From Verif Require Import Bits IR Rv64Spec Rv64FpSpec A64Base A64Simd A64 A64Spec A64SimdSpec.
From Verif Require X86SseSpec.
Import X86SseSpec(Ln, vec, ovec, mask_if).
Import ListNotations.
Open Scope Z_scope.

Definition ob {A B} (x : option A) (f : A -> option B) : option B := match x with Some a => f a | None => None end.

(** IEEE comparison of two patterns; [None] is unordered. *)
Definition fkey (z : Rv64FpSpec.fsz) (x : Z) : Z := let m := x mod 2 ^ (fwid z - 1) in if signof (fwid z) x =? 0 then m else - m.
Definition frel (z : Rv64FpSpec.fsz) (x y : Z) : option comparison :=
  if fnan z x || fnan z y then None else Some (fkey z x ?= fkey z y).
Definition r_eq (r : option comparison) : bool := match r with Some Eq => true | _ => false end.
Definition r_gt (r : option comparison) : bool := match r with Some Gt => true | _ => false end.
Definition r_lt (r : option comparison) : bool := match r with Some Lt => true | _ => false end.
Definition r_un (r : option comparison) : bool := match r with None => true | _ => false end.
(** FPCompare: NZCV. *)
Definition fpcompare (r : option comparison) : kflag -> option bool :=
  match r with
  | None => nzcv false false true true
  | Some Eq => nzcv false true true false
  | Some Lt => nzcv true false false false
  | Some Gt => nzcv false false true false
  end.

(** FPAbs. *)
Definition fpabs (z : Rv64FpSpec.fsz) (x : Z) : Z := x mod 2 ^ (fwid z - 1).

(** FPProcessNaNs, FPMax, FPMin. Zeros are ordered by sign. *)
Definition fsnan (z : Rv64FpSpec.fsz) (x : Z) : bool := fnan z x && negb (Z.testbit x (fman z - 1)).
Definition fquiet (z : Rv64FpSpec.fsz) (x : Z) : Z := Z.lor x (2 ^ (fman z - 1)).
Definition fpnans (z : Rv64FpSpec.fsz) (x y : Z) : Z :=
  if fsnan z x then fquiet z x else if fsnan z y then fquiet z y else if fnan z x then x else y.
Definition ftkey (z : Rv64FpSpec.fsz) (x : Z) : Z := let m := x mod 2 ^ (fwid z - 1) in if signof (fwid z) x =? 0 then m else - m - 1.
Definition fpmax (z : Rv64FpSpec.fsz) (x y : Z) : Z :=
  if fnan z x || fnan z y then fpnans z x y else if ftkey z x <? ftkey z y then y else x.
Definition fpmin (z : Rv64FpSpec.fsz) (x y : Z) : Z :=
  if fnan z x || fnan z y then fpnans z x y else if ftkey z y <? ftkey z x then y else x.

(** FPToFixed: the value scaled by 2^fbits, rounded, saturated; NaN gives 0. *)
Definition fptofixed (w : Z) (sg : bool) (r : rmode) (fb : Z) (z : Rv64FpSpec.fsz) (x : Z) : Z :=
  match fval z x with
  | Some (n, e) => Z.max (imin w sg) (Z.min (imax w sg) (rint r (n, e + fb)))
  | None => if fnan z x then 0 else if signof (fwid z) x =? 0 then imax w sg else imin w sg
  end.
(** A pattern's value times 2^k, for zeros and where the result stays normal. *)
Definition fscale (z : Rv64FpSpec.fsz) (x k : Z) : Z := if fpabs z x =? 0 then x else x + k * 2 ^ fman z.
(** The patterns of 1 and of 2^k. *)
Definition fone (z : Rv64FpSpec.fsz) : Z := 2 ^ (fwid z - 2 - fman z) - 1.
Definition fpow2 (z : Rv64FpSpec.fsz) (k : Z) : Z := (fone z + k) * 2 ^ fman z.
(** FPDecodeRounding; round-to-odd does not reach these instructions. *)
Definition frm_mode (m : frm) : option rmode :=
  match m with
  | FPR_CURRENT | FPR_TIE_EVEN => Some RNE | FPR_TIE_AWAY => Some RMM
  | FPR_NEG_INF => Some RDN | FPR_ZERO => Some RTZ | FPR_POS_INF => Some RUP
  | FPR_ODD => None
  end.
(** IEEE roundToIntegral in a given mode. *)
Definition to_integral (r : rmode) : fpname :=
  match r with RNE => FRint | RMM => FRound | RDN => FFloor | RTZ => FTruncI | RUP => FCeil end.

(** Formats of an arrangement and of a scalar size; half precision is not covered. *)
Definition vfmt (v : va) : option Rv64FpSpec.fsz :=
  match v with VA_2S | VA_4S => Some FS | VA_1D | VA_2D => Some FD | _ => None end.
Definition sfmt (z : A64Base.fsz) : option Rv64FpSpec.fsz :=
  match z with FSZ_S => Some FS | FSZ_D => Some FD | _ => None end.

Section Spec.
Context `{FpuOps}.
(** An IEEE operation; results are patterns of the format. *)
Definition fpo (f : fpname) (s t : ty) (l : list Z) : option Z := option_map (U (tsize t)) (fpu_op f s t l).

Section Vec.
Variable i : vinst.
Variable g : kst.
Variable z : Rv64FpSpec.fsz.
Let v := v_va i.
Let w := fwid z.
Let t := fty z.
Let N := if v_scalar i then 1 else elems v.
Let en := Ln w (k_q g (v_rn i)).
Let em := Ln w (k_q g (v_rm i)).
Let ed := Ln w (k_q g (v_rd i)).
Let elem := Ln w (k_q g (v_rm i)) (v_imm i).
Let cat (k : Z) : Z := if k <? elems v then en k else em (k - elems v).
Let op1 (f : fpname) (x : Z) : option Z := fpo f t t [x].
Let op2 (f : fpname) (x y : Z) : option Z := fpo f t t [x; y].
Let lanes (f : Z -> option Z) : option Z := ovec w f (Z.to_nat N).
Let pure (f : Z -> Z) : option Z := Some (out w N f).
Let cm (p : option comparison -> bool) (y : Z -> Z) : option Z := pure (fun k => mask_if w (p (frel z (en k) (y k)))).
Let r_ge r := r_gt r || r_eq r.
Let r_le r := r_lt r || r_eq r.

(** The value written to Vd. *)
Definition vres_fp (o : fop) : option Z :=
  match o with
  | V_FCVT => ob (frm_mode (v_mode i)) (fun r => pure (fun k => fptofixed w (v_sgn i) r (v_fbits i) z (en k)))
  (* FixedToFP: the integer divided by 2^fbits, rounded once. Integers of at most 64 bits
     divided by at most 2^64 are no subnormals, so that the rounded integer, its exponent
     lowered, is the same number. *)
  | V_CVTF => if (0 <=? v_fbits i) && (v_fbits i <=? w)
              then lanes (fun k => ob (fpo (if v_sgn i then FSIToFP else FUIToFP) (TInt w) t [en k]) (fun s => Some (fscale z s (- v_fbits i)))) else None
  | V_FRINT | V_FRINTX => if v_fbits i =? 0 then ob (frm_mode (v_mode i)) (fun r => lanes (fun k => op1 (to_integral r) (en k))) else None
  | V_FCVTN =>
    (* FCVTN(2): 64 to 32 bits, into the lower or upper half *)
    match z with
    | FD => None
    | FS => let c k := fpo FTrunc TF64 TF32 [Ln 64 (k_q g (v_rn i)) k] in
            ovec 32 (fun k => if isq v then if k <? 2 then Some (ed k) else c (k - 2) else c k) (Z.to_nat (elems v))
    end
  | V_FCVTL =>
    match z with
    | FD => None
    | FS => ovec 64 (fun k => fpo FExt TF32 TF64 [en (if isq v then 2 + k else k)]) 2
    end
  | V_FCMEQ => cm r_eq em | V_FCMEQ_Z => cm r_eq (fun _ => 0)
  | V_FCMGE => cm r_ge em | V_FCMGE_Z => cm r_ge (fun _ => 0)
  | V_FCMGT => cm r_gt em | V_FCMGT_Z => cm r_gt (fun _ => 0)
  | V_FCMLE_Z => cm r_le (fun _ => 0) | V_FCMLT_Z => cm r_lt (fun _ => 0)
  | V_FABS => pure (fun k => fpabs z (en k))
  | V_FABD => lanes (fun k => ob (op2 FSub (en k) (em k)) (fun d => Some (fpabs z d)))
  | V_FNEG => pure (fun k => fnegate z (en k))
  | V_FSQRT => lanes (fun k => op1 FSqrt (en k))
  | V_FMUL_ELEM => lanes (fun k => op2 FMul (en k) elem)
  | V_FMUL => lanes (fun k => op2 FMul (en k) (em k))
  | V_FDIV => lanes (fun k => op2 FDiv (en k) (em k))
  | V_FADD => lanes (fun k => op2 FAdd (en k) (em k))
  | V_FSUB => lanes (fun k => op2 FSub (en k) (em k))
  | V_FMAX => pure (fun k => fpmax z (en k) (em k))
  | V_FMIN => pure (fun k => fpmin z (en k) (em k))
  | V_FMAXNM => lanes (fun k => op2 FMaxnum (en k) (em k))
  | V_FMINNM => lanes (fun k => op2 FMinnum (en k) (em k))
  | V_FMLA_ELEM => lanes (fun k => fpo FFma t t [en k; elem; ed k])
  | V_FMLA => lanes (fun k => fpo FFma t t [en k; em k; ed k])
  | V_FMLS_ELEM => lanes (fun k => fpo FFma t t [fnegate z (en k); elem; ed k])
  | V_FMLS => lanes (fun k => fpo FFma t t [fnegate z (en k); em k; ed k])
  | V_FMOV => pure (fun _ => v_imm i)
  | V_FADDP => op2 FAdd (en 0) (en 1)
  | V_FADDP_VEC => lanes (fun k => op2 FAdd (cat (2 * k)) (cat (2 * k + 1)))
  | V_FMAXP_VEC => pure (fun k => fpmax z (cat (2 * k)) (cat (2 * k + 1)))
  | V_FMINP_VEC => pure (fun k => fpmin z (cat (2 * k)) (cat (2 * k + 1)))
  | V_FMAXNMP_VEC => lanes (fun k => op2 FMaxnum (cat (2 * k)) (cat (2 * k + 1)))
  | V_FMINNMP_VEC => lanes (fun k => op2 FMinnum (cat (2 * k)) (cat (2 * k + 1)))
  | V_FMAXP => Some (fpmax z (en 0) (en 1))
  | V_FMINP => Some (fpmin z (en 0) (en 1))
  | V_FMAXNMP => op2 FMaxnum (en 0) (en 1)
  | V_FMINNMP => op2 FMinnum (en 0) (en 1)
  (* Reduce: the halves first; these exist for four elements only *)
  | V_FMAXV => Some (fpmax z (fpmax z (en 0) (en 1)) (fpmax z (en 2) (en 3)))
  | V_FMINV => Some (fpmin z (fpmin z (en 0) (en 1)) (fpmin z (en 2) (en 3)))
  | V_FMAXNMV => ob (op2 FMaxnum (en 0) (en 1)) (fun a => ob (op2 FMaxnum (en 2) (en 3)) (fun b => op2 FMaxnum a b))
  | V_FMINNMV => ob (op2 FMinnum (en 0) (en 1)) (fun a => ob (op2 FMinnum (en 2) (en 3)) (fun b => op2 FMinnum a b))
  end.
End Vec.
Definition kfp (i : vinst) (g : kst) (o : fop) : option kst :=
  ob (vfmt (v_va i)) (fun z => ob (vres_fp i g z o) (fun x => Some (wrq g (v_rd i) x))).

Section Sca.
Variable i : vinst.
Variable g : kst.
Variable z : Rv64FpSpec.fsz.
Let w := fwid z.
Let t := fty z.
Let x := U w (k_q g (v_rn i)).
Let y := U w (k_q g (v_rm i)).
Let a := U w (k_q g (v_ra i)).
Let wr (r : option Z) : option kst := ob r (fun r => Some (wrq g (v_rd i) r)).
Let op1 (f : fpname) : option kst := wr (fpo f t t [x]).
Let op2 (f : fpname) : option kst := wr (fpo f t t [x; y]).
Let gw := bits (v_w32 i).
Definition ksfp_z (o : sop) : option kst :=
  match o with
  | S_FCVT_GPR => ob (frm_mode (v_mode i)) (fun r => Some (wrx g (v_xd i) gw (fptofixed gw (v_sgn i) r (v_fbits i) z x)))
  | S_CVTF => if (0 <=? v_fbits i) && (v_fbits i <=? gw)
              then wr (ob (fpo (if v_sgn i then FSIToFP else FUIToFP) (TInt gw) t [rdx g (v_xn i) gw]) (fun s => Some (fscale z s (- v_fbits i)))) else None
  | S_FRINT | S_FRINTX => if v_fbits i =? 0 then ob (frm_mode (v_mode i)) (fun r => op1 (to_integral r)) else None
  | S_FCVT_S => match z with FD => wr (fpo FTrunc TF64 TF32 [x]) | FS => None end
  | S_FCVT_D => match z with FS => wr (fpo FExt TF32 TF64 [x]) | FD => None end
  | S_FABS => wr (Some (fpabs z x))
  | S_FNEG => wr (Some (fnegate z x))
  | S_FSQRT => op1 FSqrt
  | S_FMUL => op2 FMul | S_FDIV => op2 FDiv | S_FADD => op2 FAdd | S_FSUB => op2 FSub
  | S_FMAX => wr (Some (fpmax z x y))
  | S_FMIN => wr (Some (fpmin z x y))
  | S_FMAXNM => op2 FMaxnum
  | S_FMINNM => op2 FMinnum
  | S_FNMUL => wr (ob (fpo FMul t t [x; y]) (fun p => Some (fnegate z p)))
  | S_FMADD => wr (fpo FFma t t [x; y; a])
  | S_FMSUB => wr (fpo FFma t t [fnegate z x; y; a])
  | S_FNMADD => wr (fpo FFma t t [fnegate z x; y; fnegate z a])
  | S_FNMSUB => wr (fpo FFma t t [x; y; fnegate z a])
  | S_FCMP => Some (wrf g (fpcompare (frel z x y)))
  | S_FCMP_Z => Some (wrf g (fpcompare (frel z x 0)))
  | S_FMOV_IMM => wr (Some (U w (v_imm i)))
  end.
End Sca.
Definition ksfp (i : vinst) (g : kst) (o : sop) : option kst := ob (sfmt (v_fsz i)) (fun z => ksfp_z i g z o).

(** What LLVM (LangRef) and IEEE 754 say about the operations the specification above
    defines exactly. *)
Record fpu_ieee : Prop := {
  fi_cmp : forall z x y, inr (fwid z) x -> inr (fwid z) y ->
    fpu_op (FCmp 1) (fty z) (TInt 1) [x; y] = Some (b2z (r_eq (frel z x y))) /\
    fpu_op (FCmp 2) (fty z) (TInt 1) [x; y] = Some (b2z (r_gt (frel z x y))) /\
    fpu_op (FCmp 3) (fty z) (TInt 1) [x; y] = Some (b2z (r_gt (frel z x y) || r_eq (frel z x y))) /\
    fpu_op (FCmp 4) (fty z) (TInt 1) [x; y] = Some (b2z (r_lt (frel z x y))) /\
    fpu_op (FCmp 5) (fty z) (TInt 1) [x; y] = Some (b2z (r_lt (frel z x y) || r_eq (frel z x y))) /\
    fpu_op (FCmp 8) (fty z) (TInt 1) [x; y] = Some (b2z (r_un (frel z x y)));
  fi_neg : forall z x, inr (fwid z) x -> fpu_op FNeg (fty z) (fty z) [x] = Some (fnegate z x);
  fi_abs : forall z x, inr (fwid z) x -> fpu_op FFabs (fty z) (fty z) [x] = Some (fpabs z x);
  (* fptosi, fptoui truncate; out of range they are poison *)
  fi_int : forall (w : Z) (sg : bool) z x, inr (fwid z) x ->
    fpu_op (if sg then FToSI else FToUI) (fty z) (TInt w) [x] =
    match fval z x with
    | Some v => if (imin w sg <=? rint RTZ v) && (rint RTZ v <=? imax w sg) then Some (rint RTZ v) else None
    | None => None
    end;
  (* rounding gives a pattern of the rounded value, and keeps NaN and infinities *)
  fi_round : forall r z x, inr (fwid z) x ->
    exists y, fpu_op (to_integral r) (fty z) (fty z) [x] = Some y /\ inr (fwid z) y /\
      match fval z x with
      | Some v => exists v', fval z y = Some v' /\ forall r', rint r' v' = rint r v
      | None => fval z y = None
      end;
  (* maxnum and minnum of a number and a NaN give the number; of two
     numbers, unless both are zeros, the larger (smaller) one *)
  fi_nan : forall f z x y, In f [FMaxnum; FMinnum] -> inr (fwid z) x -> inr (fwid z) y ->
    fnan z x = false -> fnan z y = true ->
    fpu_op f (fty z) (fty z) [x; y] = Some x /\ fpu_op f (fty z) (fty z) [y; x] = Some x;
  fi_max : forall z x y, inr (fwid z) x -> inr (fwid z) y -> frel z x y <> None -> (frel z x y = Some Eq -> x = y) ->
    fpu_op FMaxnum (fty z) (fty z) [x; y] = Some (if r_lt (frel z x y) then y else x) /\
    fpu_op FMinnum (fty z) (fty z) [x; y] = Some (if r_gt (frel z x y) then y else x);
  (* a nonzero integer of at most 64 bits becomes a number from 1 to 2^64 *)
  fi_from : forall (w : Z) (sg : bool) z x s, 1 <= w <= 64 -> inr w x -> fpu_op (if sg then FSIToFP else FUIToFP) (TInt w) (fty z) [x] = Some s ->
    inr (fwid z) s /\ (fpabs z s = 0 \/ fone z <= fexp z s <= fone z + 64);
  (* multiplication and division by a power of two are exact on zeros and on normal
     numbers, if the result is normal *)
  fi_mul2 : forall z x k, inr (fwid z) x -> 0 <= k <= 64 -> fpabs z x = 0 \/ 0 < fexp z x /\ fexp z x + k < 2 ^ (fwid z - 1 - fman z) - 1 ->
    fpu_op FMul (fty z) (fty z) [x; fpow2 z k] = Some (fscale z x k);
  fi_div2 : forall z x k, inr (fwid z) x -> 0 <= k <= 64 -> fpabs z x = 0 \/ k < fexp z x < 2 ^ (fwid z - 1 - fman z) - 1 ->
    fpu_op FDiv (fty z) (fty z) [x; fpow2 z k] = Some (fscale z x (- k));
}.
End Spec.
