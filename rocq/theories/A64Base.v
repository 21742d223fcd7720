(** Register operands of the AArch64 lifter: the parts of /repo/src/a64/main.cc that
    the scalar (A64.v) and the SIMD (A64Simd.v) instructions share. *)

From Coq Require Import ZArith Lia List Bool.
From Verif Require Import Bits IR Facet Dsl.
Import ListNotations.
Open Scope Z_scope.

(** farmdec::Reg: X0..X30, the zero register, the stack pointer. *)
Inductive xr := RX (n : Z) | RZR | RSP.
(** farmdec::FPSize. *)
Inductive fsz := FSZ_B | FSZ_H | FSZ_S | FSZ_D | FSZ_Q.

(** regfile.h:107. *)
Definition A64_SP := GP 31.
Definition bits (w32 : bool) : Z := if w32 then 32 else 64.

(** main.cc:914-930 GetGp, without and with [ptr]. *)
Definition GetGp (r : xr) (w32 : bool) : dexp :=
  match r with
  | RZR => cI (bits w32) 0
  | RSP => rG A64_SP (if w32 then I32 else I64)
  | RX n => rG (GP n) (if w32 then I32 else I64)
  end.
Definition GetPtr (r : xr) : dexp :=
  match r with RZR => cI 64 0 | RSP => rG A64_SP PTR | RX n => rG (GP n) PTR end.
(** main.cc:932-942 SetGp. *)
Definition SetGp (r : xr) (v : dexp) : list stm :=
  match r with RZR => [SLet 63 v] | RSP => [SSet A64_SP v] | RX n => [SSet (GP n) v] end.
(** irb.CreateGEP(type of [k] bytes, base, off). *)
Definition aGep (k : Z) (base off : dexp) : dexp := E2 OGep base (eMul off (cI 64 k)).
Definition eToPtr (e : dexp) : dexp := E1 (OCast CIntToPtr TPtr) e.

(** main.cc:995-1012 GetScalar and 1072-1082 TypeOf. FSZ_S and FSZ_D are floating-point
    types unless [fp] is false. *)
Definition sc_facet (z : fsz) (fp : bool) : facet :=
  match z with
  | FSZ_B => I8 | FSZ_H => I16
  | FSZ_S => if fp then F32 else I32
  | FSZ_D => if fp then F64 else I64
  | FSZ_Q => I128
  end.
Definition GetScalar (r : Z) (z : fsz) (fp : bool) : dexp := rG (VEC r) (sc_facet z fp).
Definition SetScalar (r : Z) (v : dexp) : list stm := [SSet (VEC r) v].

