(** Model of the x86-64 instructions CPUID and RDTSC (/repo/src/x86-64/lifter-gp.cc:692-725),
    LFENCE, SFENCE, MFENCE and the prefetches (/repo/src/x86-64/lifter-sse.cc:43-61), which
    use values that are neither in registers nor in memory, or no values at all. *)

From Coq Require Import ZArith Lia List Bool.
From Verif Require Import Bits IR Facet Dsl Rv64 X86.
Import ListNotations.
Open Scope Z_scope.

(** /repo/src/x86-64/lifter.cc:96-97, 200-210. *)
Inductive mmn :=
| M_CPUID | M_RDTSC | M_LFENCE | M_SFENCE | M_MFENCE
| M_PREFETCH | M_RESERVED_PREFETCH | M_PREFETCHT0 | M_PREFETCHT1 | M_PREFETCHT2 | M_PREFETCHNTA | M_PREFETCHW | M_PREFETCHWT1.
(** /repo/src/instr.h:45-147, the parts that are used. *)
Record minst := MInst { k_mn : mmn; k_op0 : xopnd; k_start : Z; k_len : Z }.
Definition k_end (i : minst) : Z := trunc 64 (k_start i + k_len i).

(** Emitted code: statements; statements, then a call of the function for CPU
    information with two arguments, its two results as the variables [x] and [y],
    and more statements; or a call of llvm.readcyclecounter. *)
Inductive mcode :=
| MStm (l : list stm)
| MInfo (l : list stm) (a b : dexp) (x y : nat) (l' : list stm)
| MTsc (x : nat) (l : list stm).
Definition mpre (p : list stm) (k : mcode) : mcode :=
  match k with
  | MStm l => MStm (p ++ l)
  | MInfo l a b x y l' => MInfo (p ++ l) a b x y l'
  | MTsc x l => MTsc x (p ++ l)
  end.

Section Lift.
Variable c : cenv.
Variable cfg : xcfg.
(** Whether cpuinfo_function is set (/repo/src/config.h:98-103). *)
Variable has_info : bool.
Variable kc : areg -> konst.

(** lifter-gp.cc:692-713 LiftCpuid. *)
Definition LiftCpuid : mcode :=
  let set eax ecx edx ebx := [SSet RAX eax; SSet RCX ecx; SSet RDX edx; SSet RBX ebx] in
  if has_info then
    MInfo [] (rG RAX I32) (rG RCX I32) 0 1
      (set (eAnd (vX 0) (cI 64 0xffffffff)) (eLShr (vX 0) (cI 64 32)) (eAnd (vX 1) (cI 64 0xffffffff)) (eLShr (vX 1) (cI 64 32)))
  else MStm (set (cI 64 0) (cI 64 0) (cI 64 0) (cI 64 0)).
(** lifter-gp.cc:715-725 LiftRdtsc. *)
Definition LiftRdtsc : mcode := MTsc 0 [SSet RAX (eTrunc 32 (vX 0)); SSet RDX (eLShr (vX 0) (cI 64 32))].
(** lifter-sse.cc:43-46 LiftFence. The order of memory accesses of several threads is
    not modelled. *)
Definition LiftFence : mcode := MStm [].
(** lifter-sse.cc:48-61 LiftPrefetch: the address is computed and given to
    llvm.prefetch, which is declared for pointers of address space 0 (50-51, 53).
    [None]: the address has the address space of a segment (lifter-operand.cc:79-86), and
    the call is ill-typed; or the operand is not in memory. Simplification: the hints
    have no effect. *)
Definition LiftPrefetch (i : minst) : option mcode :=
  match k_op0 i with
  | XMem _ m => if ((m_seg m =? 4) || (m_seg m =? 5)) && xl_nativeseg cfg then None else Some (MStm [SLet 0 (OpAddr c cfg kc m 7)])
  | _ => None
  end.
(** lifter.cc:47-75, 96-97, 200-210, without instruction marker and overrides. *)
Definition lift_misc (i : minst) : option mcode :=
  option_map (mpre [SPcConst (k_end i)])
  match k_mn i with
  | M_CPUID => Some LiftCpuid
  | M_RDTSC => Some LiftRdtsc
  | M_LFENCE | M_SFENCE | M_MFENCE => Some LiftFence
  | _ => LiftPrefetch i
  end.
End Lift.

(** Execution. [info]: the function for CPU information, which sees its arguments
    only and gives {ecx:eax, ebx:edx}. [tsc]: the counter at the time of the call.
    Simplification: the function does not change memory. *)
Section Exec.
Context `{FpuOps}.
Variable c : cenv.
Variable info : Z -> Z -> Z * Z.
Variable tsc : Z.
Definition mrun (s : st) (k : mcode) : res st :=
  match k with
  | MStm l => run c s l
  | MInfo l a b x y l' =>
    do s <- run c s l; do va <- ev c s a; do vb <- ev c s b;
    match va, vb with
    | V (TInt 32) za, V (TInt 32) zb =>
      let '(r1, r2) := info za zb in
      run c (with_var s (upd_var (upd_var (s_var s) x (V (TInt 64) r1)) y (V (TInt 64) r2))) l'
    | V _ _, V _ _ => TyErr
    | _, _ => UB
    end
  | MTsc x l => run c (with_var s (upd_var (s_var s) x (V (TInt 64) tsc))) l
  end.
End Exec.
