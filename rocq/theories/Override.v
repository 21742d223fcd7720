(** Overridden AArch64 instructions (ll_config_set_instr_impl); for RV64 and x86-64 they
    are part of [lift_rv64] and [lift_x86]. *)

From Coq Require Import ZArith List.
From Verif Require Import Bits IR Facet Dsl A64Base A64Simd A64.
Import ListNotations.
Open Scope Z_scope.

(** /repo/src/a64/main.cc:51-68: [ov] is the override for this kind of instruction. The
    instruction marker (54-61) is not modelled. *)
Definition lift_a64_ov (cfg : acfg) (ov : option Z) (i : ainst) : option (bool * list stm) :=
  match ov with
  | Some f => Some (true, [SPcConst (a_start i); SCall f])
  | None => lift_a64 cfg i
  end.
