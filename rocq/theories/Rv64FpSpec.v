(** Reference semantics of the RV64 F/D arithmetic, comparison, conversion and
    fcsr instructions, independent of the lifter (unprivileged ISA, chapters "F" and "D").

    The IEEE operations themselves (add, multiply, square root, fused multiply-add,
    comparisons, ...) are the uninterpreted operations [fpu_op] on bit patterns; no law
    is assumed of them. Rounding a value to an integer is defined here exactly. The
    dynamic rounding mode is its reset value, round to nearest even; exception flags
    are not part of the state. *)

From Coq Require Import ZArith Lia ZifyBool List Bool.
From Verif Require Import Bits IR Facet Dsl Rv64 Rv64Spec.
Import ListNotations.
Open Scope Z_scope.
Ltac Zify.zify_post_hook ::= Z.div_mod_to_equations.

(** Formats. *)
Inductive fsz := FS | FD.
Definition fwid (z : fsz) : Z := match z with FS => 32 | FD => 64 end.
Definition fman (z : fsz) : Z := match z with FS => 23 | FD => 52 end.
Definition fty (z : fsz) : ty := match z with FS => TF32 | FD => TF64 end.

(** Rounding modes (table "Rounding mode encoding"); 7 is the dynamic mode. *)
Inductive rmode := RNE | RTZ | RDN | RUP | RMM.
Definition rm_of (m : Z) : option rmode :=
  if m =? 0 then Some RNE else if m =? 1 then Some RTZ else if m =? 2 then Some RDN
  else if m =? 3 then Some RUP else if m =? 4 then Some RMM else if m =? 7 then Some RNE else None.
Definition is_rne (m : Z) : bool := match rm_of m with Some RNE => true | _ => false end.

(** The value of a finite pattern is [n * 2^e]; NaN and infinities have none. *)
Definition fexp (z : fsz) (x : Z) : Z := (x / 2^fman z) mod 2^(fwid z - 1 - fman z).
Definition fval (z : fsz) (x : Z) : option (Z * Z) :=
  let ew := fwid z - 1 - fman z in
  let f := x mod 2^fman z in
  if fexp z x =? 2^ew - 1 then None
  else let n := if fexp z x =? 0 then f else 2^fman z + f in
       Some (if signof (fwid z) x =? 0 then n else - n,
             (if fexp z x =? 0 then 1 else fexp z x) - (2^(ew-1) - 1) - fman z).
Definition fnan (z : fsz) (x : Z) : bool := (fexp z x =? 2^(fwid z - 1 - fman z) - 1) && negb (x mod 2^fman z =? 0).

(** [n * 2^e] rounded to an integer. *)
Definition rquot (r : rmode) (n d : Z) : Z :=
  match r with
  | RTZ => Z.quot n d
  | RDN => n / d
  | RUP => - ((- n) / d)
  | RMM => Z.sgn n * ((2 * Z.abs n + d) / (2 * d))
  | RNE => let q := n / d in let m := n mod d in
           if 2 * m <? d then q else if d <? 2 * m then q + 1 else if Z.even q then q else q + 1
  end.
Definition rint (r : rmode) (v : Z * Z) : Z :=
  if 0 <=? snd v then fst v * 2^snd v else rquot r (fst v) (2^(- snd v)).

(** Range of a [w]-bit integer result, and the ISA's conversion: the rounded value
    clipped to the range; NaN and +inf give the largest value. *)
Definition imin (w : Z) (sg : bool) : Z := if sg then - 2^(w-1) else 0.
Definition imax (w : Z) (sg : bool) : Z := if sg then 2^(w-1) - 1 else 2^w - 1.
Definition isa_toint (w : Z) (sg : bool) (r : rmode) (z : fsz) (x : Z) : Z :=
  match fval z x with
  | Some v => Z.max (imin w sg) (Z.min (imax w sg) (rint r v))
  | None => if fnan z x || (signof (fwid z) x =? 0) then imax w sg else imin w sg
  end.

(** Classification of the mnemonics. *)
Definition fp_arith (mn : rvmnem) : option (fpname * fsz) :=
  match mn with
  | R_FADDS => Some (FAdd, FS) | R_FSUBS => Some (FSub, FS) | R_FMULS => Some (FMul, FS) | R_FDIVS => Some (FDiv, FS)
  | R_FADDD => Some (FAdd, FD) | R_FSUBD => Some (FSub, FD) | R_FMULD => Some (FMul, FD) | R_FDIVD => Some (FDiv, FD)
  | _ => None
  end.
Definition fp_minmax (mn : rvmnem) : option (fpname * fsz) :=
  match mn with
  | R_FMINS => Some (FMinnum, FS) | R_FMAXS => Some (FMaxnum, FS)
  | R_FMIND => Some (FMinnum, FD) | R_FMAXD => Some (FMaxnum, FD)
  | _ => None
  end.
Definition fp_sqrt (mn : rvmnem) : option fsz :=
  match mn with R_FSQRTS => Some FS | R_FSQRTD => Some FD | _ => None end.
(** Signs of the product and of the addend. *)
Definition fp_fma (mn : rvmnem) : option (bool * bool * fsz) :=
  match mn with
  | R_FMADDS => Some (false, false, FS) | R_FMSUBS => Some (false, true, FS)
  | R_FNMSUBS => Some (true, false, FS) | R_FNMADDS => Some (true, true, FS)
  | R_FMADDD => Some (false, false, FD) | R_FMSUBD => Some (false, true, FD)
  | R_FNMSUBD => Some (true, false, FD) | R_FNMADDD => Some (true, true, FD)
  | _ => None
  end.
(** Ordered predicates: equal, less, less or equal (their numbers in llvm/IR/InstrTypes.h). *)
Definition fp_cmp (mn : rvmnem) : option (fpname * fsz) :=
  match mn with
  | R_FEQS => Some (FCmp 1, FS) | R_FLTS => Some (FCmp 4, FS) | R_FLES => Some (FCmp 5, FS)
  | R_FEQD => Some (FCmp 1, FD) | R_FLTD => Some (FCmp 4, FD) | R_FLED => Some (FCmp 5, FD)
  | _ => None
  end.
(** Integer width and signedness, floating-point format. *)
Definition fp_fromint (mn : rvmnem) : option (Z * bool * fsz) :=
  match mn with
  | R_FCVTSW => Some (32, true, FS) | R_FCVTSWU => Some (32, false, FS)
  | R_FCVTSL => Some (64, true, FS) | R_FCVTSLU => Some (64, false, FS)
  | R_FCVTDW => Some (32, true, FD) | R_FCVTDWU => Some (32, false, FD)
  | R_FCVTDL => Some (64, true, FD) | R_FCVTDLU => Some (64, false, FD)
  | _ => None
  end.
Definition fp_toint (mn : rvmnem) : option (Z * bool * fsz) :=
  match mn with
  | R_FCVTWS => Some (32, true, FS) | R_FCVTWUS => Some (32, false, FS)
  | R_FCVTLS => Some (64, true, FS) | R_FCVTLUS => Some (64, false, FS)
  | R_FCVTWD => Some (32, true, FD) | R_FCVTWUD => Some (32, false, FD)
  | R_FCVTLD => Some (64, true, FD) | R_FCVTLUD => Some (64, false, FD)
  | _ => None
  end.
(** Format of a floating-point result. *)
Definition fp_dest (mn : rvmnem) : option fsz :=
  match fp_arith mn, fp_minmax mn, fp_sqrt mn, fp_fma mn, fp_fromint mn with
  | Some (_, z), _, _, _, _ | _, Some (_, z), _, _, _ | _, _, Some z, _, _ | _, _, _, Some (_, _, z), _ | _, _, _, _, Some (_, _, z) => Some z
  | _, _, _, _, _ => match mn with R_FCVTSD => Some FS | R_FCVTDS => Some FD | _ => None end
  end.

(** Register operands and results: single-precision values are NaN-boxed. *)
Definition rf (g : gst) (z : fsz) (n : Z) : Z := match z with FS => unbox (g_f g n) | FD => g_f g n end.
Definition wfz (g : gst) (z : fsz) (n v : Z) : gst := wf g n (match z with FS => nanbox v | FD => U 64 v end).
Definition fnegate (z : fsz) (x : Z) : Z := with_sign (fwid z) x (1 - signof (fwid z) x).
Definition fneg_if (b : bool) (z : fsz) (x : Z) : Z := if b then fnegate z x else x.

Section Spec.
Context `{FpuOps}.
(** One step; [None] for other instructions, and for static rounding modes other than
    nearest-even where the oracle has no operation. *)
Definition isa_fpa (i : rvinst) (g : gst) : option gst :=
  let next g' := wpc g' (g_pc g + r_len i) in
  let x z := rf g z (r_rs1 i) in
  let y z := rf g z (r_rs2 i) in
  let wr z o := match o with Some v => Some (next (wfz g z (r_rd i) v)) | None => None end in
  match fp_arith (r_mn i) with
  | Some (op, z) => if is_rne (r_misc i) then wr z (fpu_op op (fty z) (fty z) [x z; y z]) else None
  | None =>
  match fp_minmax (r_mn i) with
  | Some (op, z) => wr z (fpu_op op (fty z) (fty z) [x z; y z])
  | None =>
  match fp_sqrt (r_mn i) with
  | Some z => if is_rne (r_misc i) then wr z (fpu_op FSqrt (fty z) (fty z) [x z]) else None
  | None =>
  match fp_fma (r_mn i) with
  | Some (np, na, z) =>
    if is_rne (r_misc i)
    then wr z (fpu_op FFma (fty z) (fty z) [fneg_if np z (x z); y z; fneg_if na z (rf g z (r_rs3 i))]) else None
  | None =>
  match fp_cmp (r_mn i) with
  | Some (op, z) => match fpu_op op (fty z) (TInt 1) [x z; y z] with
                    | Some v => Some (next (wx g (r_rd i) (U 1 v))) | None => None end
  | None =>
  match fp_fromint (r_mn i) with
  | Some (w, sg, z) =>
    if is_rne (r_misc i)
    then wr z (fpu_op (if sg then FSIToFP else FUIToFP) (TInt w) (fty z) [U w (rx g (r_rs1 i))]) else None
  | None =>
  match fp_toint (r_mn i) with
  | Some (w, sg, z) => match rm_of (r_misc i) with
                       | Some r => Some (next (wx g (r_rd i) (S_ w (isa_toint w sg r z (x z))))) | None => None end
  | None =>
  match r_mn i with
  | R_FCVTSD => if is_rne (r_misc i) then wr FS (fpu_op FTrunc TF64 TF32 [x FD]) else None
  | R_FCVTDS => wr FD (fpu_op FExt TF32 TF64 [x FS])
  | _ => None
  end end end end end end end end.

(** What LLVM says about the conversions the lifter emits: fptosi/fptoui truncate and
    are poison out of range (and for NaN and infinities); floor, ceil and round give a
    pattern of the rounded value, and keep NaN and infinities. *)
Record fpu_conv : Prop := {
  cv_int : forall (w : Z) (sg : bool) z x, inr (fwid z) x ->
    fpu_op (if sg then FToSI else FToUI) (fty z) (TInt w) [x] =
    match fval z x with
    | Some v => if (imin w sg <=? rint RTZ v) && (rint RTZ v <=? imax w sg) then Some (rint RTZ v) else None
    | None => None
    end;
  cv_round : forall op r z x, In (op, r) [(FFloor, RDN); (FCeil, RUP); (FRound, RMM)] -> inr (fwid z) x ->
    exists y, fpu_op op (fty z) (fty z) [x] = Some y /\ inr (fwid z) y /\
      match fval z x with
      | Some v => exists v', fval z y = Some v' /\ forall r', rint r' v' = rint r v
      | None => fval z y = None
      end
}.
End Spec.

(** fflags, frm and fcsr (CSRs 1, 2, 3) with value [fcsr]: what a read returns. *)
Definition is_csr (mn : rvmnem) : bool :=
  match mn with R_CSRRW | R_CSRRS | R_CSRRC | R_CSRRWI | R_CSRRSI | R_CSRRCI => true | _ => false end.
Definition csr_read (fcsr n : Z) : Z :=
  if n =? 1 then fcsr mod 32 else if n =? 2 then (fcsr / 32) mod 8 else fcsr mod 256.
