(** Independent specification of the AArch64 structure loads and stores (Arm ARM, C7.2
    LD1-LD4, ST1-ST4, LD1R-LD4R): which memory element corresponds to which register
    element. *)

From Coq Require Import ZArith List Bool.
From Verif Require Import Bits IR Rv64Spec A64Base A64Simd A64 A64Spec X86SseSpec A64SimdSpec.
Import X86SseSpec(Ln).
Import ListNotations.
Open Scope Z_scope.

Definition upto (n : Z) : list Z := map Z.of_nat (seq 0 (Z.to_nat n)).

Section Spec.
Variable i : vinst.
Variable g : kst.
Let v := v_va i.
Let w := esize v.
Let N := elems v.
Let eb := w / 8.
Let base := rdx g (v_xn i) 64.
(** Register r of the list, V31 being followed by V0. *)
Let R (r : Z) : Z := (v_rd i + r) mod 32.
(** Memory element j. *)
Let M (j : Z) : Z := rd_mem (k_m g) (base + eb * j) (Z.to_nat eb).

(** Number of registers. *)
Definition nregs (o : mop) : Z :=
  match o with
  | V_LD1 | V_ST1 => v_nreg i
  | V_LD1S | V_ST1S | V_LD1R => 1
  | V_LD2 | V_ST2 | V_LD2S | V_ST2S | V_LD2R => 2
  | V_LD3 | V_ST3 | V_LD3S | V_ST3S | V_LD3R => 3
  | V_LD4 | V_ST4 | V_LD4S | V_ST4S | V_LD4R => 4
  end.
Inductive kind := KMulti | KSingle | KRepl.
Definition kindof (o : mop) : kind :=
  match o with
  | V_LD1 | V_LD2 | V_LD3 | V_LD4 | V_ST1 | V_ST2 | V_ST3 | V_ST4 => KMulti
  | V_LD1R | V_LD2R | V_LD3R | V_LD4R => KRepl
  | _ => KSingle
  end.
Definition is_store (o : mop) : bool :=
  match o with V_ST1 | V_ST2 | V_ST3 | V_ST4 | V_ST1S | V_ST2S | V_ST3S | V_ST4S => true | _ => false end.
(** LD1 and ST1 are not interleaved: the registers follow each other in memory. *)
Definition linear_ls (o : mop) : bool := match o with V_LD1 | V_ST1 => true | _ => false end.
(** Memory elements transferred. *)
Definition nmem (o : mop) : Z := match kindof o with KMulti => nregs o * N | _ => nregs o end.
(** Which memory element lane e of register r is. *)
Definition pos (o : mop) (r e : Z) : Z :=
  match kindof o with KMulti => if linear_ls o then r * N + e else e * nregs o + r | _ => r end.
(** Which register and lane memory element j is (stores). *)
Definition src (o : mop) (j : Z) : Z * Z :=
  match kindof o with
  | KMulti => if linear_ls o then (j / N, j mod N) else (j mod nregs o, j / nregs o)
  | _ => (j, v_index i)
  end.
(** Post-index: by the size of the transfer or by Xm. *)
Definition kbase (o : mop) : option kst :=
  match v_am i with
  | VAM_SIMPLE => Some g
  | VAM_POST => Some (wrx g (v_xn i) 64 (base + match v_xm i with RZR => eb * nmem o | x => rdx g x 64 end))
  | VAM_OTHER => None
  end.
Definition ldval (o : mop) (r : Z) : Z :=
  match kindof o with
  | KMulti => out w N (fun e => M (pos o r e))
  | KSingle => out w (128 / w) (fun e => if e =? v_index i then M (pos o r e) else Ln w (k_q g (R r)) e)
  | KRepl => out w N (fun e => M (pos o r e))
  end.
Definition stval (o : mop) (j : Z) : Z := let (r, e) := src o j in Ln w (k_q g (R r)) e.
Definition kmemv (o : mop) : option kst :=
  match kbase o with
  | Some g1 =>
    Some (if is_store o
          then wrm g1 (fold_left (fun m j => wr_mem m (base + eb * j) (Z.to_nat eb) (stval o j)) (upto (nmem o)) (k_m g))
          else fold_left (fun g0 r => wrq g0 (R r) (ldval o r)) (upto (nregs o)) g1)
  | None => None
  end.
End Spec.
