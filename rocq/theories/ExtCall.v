(** Model of the call emitted for a function given by the user
    (/repo/src/lifter-base.cc:46-57 CallExternalFunction, /repo/src/callconv.cc:232-260
    CallConv::Call, /repo/src/function.cc:211-217). *)

From Coq Require Import ZArith List Bool.
From Verif Require Import Facet IR Dsl Layout.
Import ListNotations.
Open Scope Z_scope.

(** An argument: the CPU struct pointer fi.sptr_raw, or the null pointer
    (no value at all) that SmallVector::resize leaves. *)
Inductive argval := ArgSptr | ArgNull.
(** callconv.cc:234-236. The parameter index is 0 for every convention
    (callconv.cc:98-106). [None]: no parameter; the element 0 of an empty vector is
    written. *)
Definition call_args (f : fnty) : option (list argval) :=
  match ft_params f with [] => None | _ :: r => Some (ArgSptr :: map (fun _ => ArgNull) r) end.
(** The registers loaded from the CPU struct after the call (callconv.cc:195-217, 255):
    those of the struct of the convention that FromFunction gives. Entries without a
    register are in the list but skipped by the code; the PC is loaded in any case. *)
Definition reloaded (b : built) (f : fnty) (a : arch) : list lent := desc (to_arch (from_function b f a)).
