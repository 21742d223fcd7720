(** Model of the AArch64 structure loads and stores, /repo/src/a64/simd.cc:101-395. *)

From Coq Require Import ZArith Lia List Bool.
From Verif Require Import Bits IR Facet Dsl A64Base X86Sse A64Simd.
Import X86Sse(TV, eNull, eSplat, eShuf, zseq).
Import ListNotations.
Open Scope Z_scope.

Section Mem.
Variable i : vinst.
Let v := v_va i.
Let n := NumElem v.
Let t := TypeOf v false.
Let f := FacetOf v false.
(** The element type is an integer (ElemTypeOf without fp). *)
Let et := ElemTypeOf v false.

(** a64.rt + k, wrapping after V31. *)
Definition vreg (k : Z) : Z := (v_rd i + k) mod 32.
(** simd.cc:1707-1726 SIMDLoadStoreAddr; the base pointer goes to temporary 9. The
    default branch is the assert. *)
Definition SIMDLoadStoreAddr : option (list stm) :=
  match v_am i with
  | VAM_SIMPLE => Some [SLet 9 (GetPtr (v_xn i))]
  | VAM_POST =>
    let off := match v_xm i with RZR => cI 64 (v_off i) | x => GetGp x false end in
    Some (SLet 9 (GetPtr (v_xn i)) :: SetGp (v_xn i) (eAdd (GetGp (v_xn i) false) off))
  | VAM_OTHER => None
  end.
(** irb.CreateConstGEP1_64(type of [k] bytes, addr, j). The code omits the GEP for index 0
    in places; it adds nothing. *)
Definition mptr (k j : Z) : dexp := aGep k (vX 9) (cI 64 j).
(** Temporaries 10-13 hold the values loaded or to be stored. *)
Definition mtmp (j : Z) : nat := Z.to_nat (10 + j).
Definition mload (t : ty) (j : Z) : stm := SLoad (mtmp j) t (mptr (tsize t / 8) j).
Definition mstore (t : ty) (e : dexp) (j : Z) : stm := SStore e (mptr (tsize t / 8) j).
Definition mread (f : facet) (j : Z) : stm := rdv (mtmp j, vreg j, f).
Definition mset (j : Z) (e : dexp) : stm := SSet (VEC (vreg j)) e.
(** 1528-1537 Concat. *)
Definition Concat (a b : dexp) : dexp := eShuf (linear (2 * n) 1 0) a b.
Definition Concat4 (a b c d : dexp) : dexp := eShuf (linear (4 * n) 1 0) (Concat a b) (Concat c d).
(** 183-188, 230-234. *)
Definition xymask : list Z := flat_map (fun i => [i; i + n]) (zseq n).
(** 190-195. *)
Definition xyzmask : list Z := flat_map (fun i => [2 * i; 2 * i + 1; i + 2 * n]) (zseq n).
(** 238-244. *)
Definition xyzwmask : list Z := flat_map (fun i => [2 * i; 2 * i + 1; 2 * i + 2 * n; 2 * i + 2 * n + 1]) (zseq n).

Definition mem_body (o : mop) : option (list stm) :=
  let X := vX (mtmp 0) in let Y := vX (mtmp 1) in let Z_ := vX (mtmp 2) in let W := vX (mtmp 3) in
  let zero4 := eNull (TVec (4 * n) et) in
  let deint (c : dexp) (m k : Z) := eShuf (linear n m k) c zero4 in
  (* 250-290 *)
  let lds (m : Z) :=
    Some (map (mload et) (zseq m) ++
          flat_map (fun j => emit [(2%nat, vreg j, FacetOf (FullVa v) false)] (vreg j) (E2 (OInsert (v_index i)) (vX 2) (vX (mtmp j)))) (zseq m)) in
  (* 291-325, StoreMulti 1680-1700 *)
  let sts (m : Z) :=
    Some (map (mread (FacetOf (FullVa v) false)) (zseq m) ++ map (fun j => mstore et (E1 (OExtract (v_index i)) (vX (mtmp j))) j) (zseq m)) in
  (* 326-395 *)
  let ldr (m : Z) := Some (map (mload et) (zseq m) ++ map (fun j => mset j (Dup v (vX (mtmp j)))) (zseq m)) in
  match o with
  (* 101-113 *)
  | V_LD1 => Some (flat_map (fun j => [mload t j; mset j (vX (mtmp j))]) (zseq (v_nreg i)))
  (* 114-129 *)
  | V_LD2 => Some (map (mload t) (zseq 2) ++ [mset 0 (eShuf (even n) X Y); mset 1 (eShuf (odd n) X Y)])
  (* 130-153 *)
  | V_LD3 =>
    let c := Concat4 X Y Z_ (eNull t) in
    Some (map (mload t) (zseq 3) ++ map (fun j => mset j (deint c 3 j)) (zseq 3))
  (* 154-175 *)
  | V_LD4 =>
    let c := Concat4 X Y Z_ W in
    Some (map (mload t) (zseq 4) ++ map (fun j => mset j (deint c 4 j)) (zseq 4))
  (* 176-190 *)
  | V_ST1 =>
    if (v_nreg i <? 1) || (4 <? v_nreg i) then None
    else Some (map (mread f) (zseq (v_nreg i)) ++ map (fun j => mstore t (vX (mtmp j)) j) (zseq (v_nreg i)))
  (* 191-203 *)
  | V_ST2 => Some (map (mread f) (zseq 2) ++ [mstore t (eShuf (zipmask_lower n) X Y) 0; mstore t (eShuf (zipmask_upper n) X Y) 1])
  (* 204-241 *)
  | V_ST3 => Some (map (mread f) (zseq 3) ++ [SStore (eShuf xyzmask (eShuf xymask X Y) (Concat Z_ (eNull t))) (vX 9)])
  (* 242-282 *)
  | V_ST4 => Some (map (mread f) (zseq 4) ++ [SStore (eShuf xyzwmask (eShuf xymask X Y) (eShuf xymask Z_ W)) (vX 9)])
  | V_LD1S => lds 1 | V_LD2S => lds 2 | V_LD3S => lds 3 | V_LD4S => lds 4
  | V_ST1S => sts 1 | V_ST2S => sts 2 | V_ST3S => sts 3 | V_ST4S => sts 4
  | V_LD1R => ldr 1 | V_LD2R => ldr 2 | V_LD3R => ldr 3 | V_LD4R => ldr 4
  end.
Definition lift_mem (o : mop) : vres :=
  match SIMDLoadStoreAddr, mem_body o with
  | Some a, Some b => Some (Some (a ++ b))
  | _, _ => None
  end.
End Mem.
