(** The CPU struct layout, configuration and architecture selection: models of
    /repo/data/rellume/cpustruct_parser.py and the cpustruct-*.json tables,
    /repo/src/callconv.cc:36-194 and /repo/src/rellume.cc:53-130. *)

From Coq Require Import ZArith Lia List Bool String.
From Verif Require Import Bits IR Facet Dsl.
Import ListNotations.
Open Scope Z_scope.

(** One entry of a description: name, size in bytes, mapped register
    ([Some None]: ArchReg::INVALID) and its access type. *)
Record lent := LEnt { le_name : option string; le_size : Z; le_reg : option (option areg * facet) }.

(** cpustruct_parser.py:31-39: offsets; [None] if an entry is misaligned. (A size
    of 0 raises an exception, too.) *)
Fixpoint layout (off : Z) (l : list lent) : option (list (lent * Z)) :=
  match l with
  | [] => Some []
  | e :: l' => if le_size e <=? 0 then None else if negb (off mod le_size e =? 0) then None
               else match layout (off + le_size e) l' with Some r => Some ((e, off) :: r) | None => None end
  end.
Definition total (l : list lent) : Z := fold_right (fun e n => le_size e + n) 0 l.

(** data/rellume/cpustruct-x86_64.json, complete. *)
Definition desc_x86 : list lent := [
  LEnt (Some "rip"%string) 8 (Some (None, I64));
  LEnt (Some "rax"%string) 8 (Some ((Some (GP 0)), I64));
  LEnt (Some "rcx"%string) 8 (Some ((Some (GP 1)), I64));
  LEnt (Some "rdx"%string) 8 (Some ((Some (GP 2)), I64));
  LEnt (Some "rbx"%string) 8 (Some ((Some (GP 3)), I64));
  LEnt (Some "rsp"%string) 8 (Some ((Some (GP 4)), I64));
  LEnt (Some "rbp"%string) 8 (Some ((Some (GP 5)), I64));
  LEnt (Some "rsi"%string) 8 (Some ((Some (GP 6)), I64));
  LEnt (Some "rdi"%string) 8 (Some ((Some (GP 7)), I64));
  LEnt (Some "r8"%string) 8 (Some ((Some (GP 8)), I64));
  LEnt (Some "r9"%string) 8 (Some ((Some (GP 9)), I64));
  LEnt (Some "r10"%string) 8 (Some ((Some (GP 10)), I64));
  LEnt (Some "r11"%string) 8 (Some ((Some (GP 11)), I64));
  LEnt (Some "r12"%string) 8 (Some ((Some (GP 12)), I64));
  LEnt (Some "r13"%string) 8 (Some ((Some (GP 13)), I64));
  LEnt (Some "r14"%string) 8 (Some ((Some (GP 14)), I64));
  LEnt (Some "r15"%string) 8 (Some ((Some (GP 15)), I64));
  LEnt (Some "zf"%string) 1 (Some ((Some (FLAG 0)), I1));
  LEnt (Some "sf"%string) 1 (Some ((Some (FLAG 1)), I1));
  LEnt (Some "pf"%string) 1 (Some ((Some (FLAG 2)), I8));
  LEnt (Some "cf"%string) 1 (Some ((Some (FLAG 3)), I1));
  LEnt (Some "of"%string) 1 (Some ((Some (FLAG 4)), I1));
  LEnt (Some "af"%string) 1 (Some ((Some (FLAG 5)), I1));
  LEnt (Some "df"%string) 1 (Some ((Some (FLAG 6)), I1));
  LEnt None 1 None;
  LEnt (Some "fsbase"%string) 8 (Some (None, I64));
  LEnt (Some "gsbase"%string) 8 (Some (None, I64));
  LEnt (Some "xmm0"%string) 16 (Some ((Some (VEC 0)), V2I64));
  LEnt (Some "xmm1"%string) 16 (Some ((Some (VEC 1)), V2I64));
  LEnt (Some "xmm2"%string) 16 (Some ((Some (VEC 2)), V2I64));
  LEnt (Some "xmm3"%string) 16 (Some ((Some (VEC 3)), V2I64));
  LEnt (Some "xmm4"%string) 16 (Some ((Some (VEC 4)), V2I64));
  LEnt (Some "xmm5"%string) 16 (Some ((Some (VEC 5)), V2I64));
  LEnt (Some "xmm6"%string) 16 (Some ((Some (VEC 6)), V2I64));
  LEnt (Some "xmm7"%string) 16 (Some ((Some (VEC 7)), V2I64));
  LEnt (Some "xmm8"%string) 16 (Some ((Some (VEC 8)), V2I64));
  LEnt (Some "xmm9"%string) 16 (Some ((Some (VEC 9)), V2I64));
  LEnt (Some "xmm10"%string) 16 (Some ((Some (VEC 10)), V2I64));
  LEnt (Some "xmm11"%string) 16 (Some ((Some (VEC 11)), V2I64));
  LEnt (Some "xmm12"%string) 16 (Some ((Some (VEC 12)), V2I64));
  LEnt (Some "xmm13"%string) 16 (Some ((Some (VEC 13)), V2I64));
  LEnt (Some "xmm14"%string) 16 (Some ((Some (VEC 14)), V2I64));
  LEnt (Some "xmm15"%string) 16 (Some ((Some (VEC 15)), V2I64))].
(** data/rellume/cpustruct-rv64.json, complete. *)
Definition desc_rv64 : list lent := [
  LEnt (Some "rip"%string) 8 (Some (None, I64));
  LEnt (Some "x0"%string) 8 (Some ((Some (GP 0)), I64));
  LEnt (Some "x1"%string) 8 (Some ((Some (GP 1)), I64));
  LEnt (Some "x2"%string) 8 (Some ((Some (GP 2)), I64));
  LEnt (Some "x3"%string) 8 (Some ((Some (GP 3)), I64));
  LEnt (Some "x4"%string) 8 (Some ((Some (GP 4)), I64));
  LEnt (Some "x5"%string) 8 (Some ((Some (GP 5)), I64));
  LEnt (Some "x6"%string) 8 (Some ((Some (GP 6)), I64));
  LEnt (Some "x7"%string) 8 (Some ((Some (GP 7)), I64));
  LEnt (Some "x8"%string) 8 (Some ((Some (GP 8)), I64));
  LEnt (Some "x9"%string) 8 (Some ((Some (GP 9)), I64));
  LEnt (Some "x10"%string) 8 (Some ((Some (GP 10)), I64));
  LEnt (Some "x11"%string) 8 (Some ((Some (GP 11)), I64));
  LEnt (Some "x12"%string) 8 (Some ((Some (GP 12)), I64));
  LEnt (Some "x13"%string) 8 (Some ((Some (GP 13)), I64));
  LEnt (Some "x14"%string) 8 (Some ((Some (GP 14)), I64));
  LEnt (Some "x15"%string) 8 (Some ((Some (GP 15)), I64));
  LEnt (Some "x16"%string) 8 (Some ((Some (GP 16)), I64));
  LEnt (Some "x17"%string) 8 (Some ((Some (GP 17)), I64));
  LEnt (Some "x18"%string) 8 (Some ((Some (GP 18)), I64));
  LEnt (Some "x19"%string) 8 (Some ((Some (GP 19)), I64));
  LEnt (Some "x20"%string) 8 (Some ((Some (GP 20)), I64));
  LEnt (Some "x21"%string) 8 (Some ((Some (GP 21)), I64));
  LEnt (Some "x22"%string) 8 (Some ((Some (GP 22)), I64));
  LEnt (Some "x23"%string) 8 (Some ((Some (GP 23)), I64));
  LEnt (Some "x24"%string) 8 (Some ((Some (GP 24)), I64));
  LEnt (Some "x25"%string) 8 (Some ((Some (GP 25)), I64));
  LEnt (Some "x26"%string) 8 (Some ((Some (GP 26)), I64));
  LEnt (Some "x27"%string) 8 (Some ((Some (GP 27)), I64));
  LEnt (Some "x28"%string) 8 (Some ((Some (GP 28)), I64));
  LEnt (Some "x29"%string) 8 (Some ((Some (GP 29)), I64));
  LEnt (Some "x30"%string) 8 (Some ((Some (GP 30)), I64));
  LEnt (Some "x31"%string) 8 (Some ((Some (GP 31)), I64));
  LEnt (Some "f0"%string) 8 (Some ((Some (VEC 0)), I64));
  LEnt (Some "f1"%string) 8 (Some ((Some (VEC 1)), I64));
  LEnt (Some "f2"%string) 8 (Some ((Some (VEC 2)), I64));
  LEnt (Some "f3"%string) 8 (Some ((Some (VEC 3)), I64));
  LEnt (Some "f4"%string) 8 (Some ((Some (VEC 4)), I64));
  LEnt (Some "f5"%string) 8 (Some ((Some (VEC 5)), I64));
  LEnt (Some "f6"%string) 8 (Some ((Some (VEC 6)), I64));
  LEnt (Some "f7"%string) 8 (Some ((Some (VEC 7)), I64));
  LEnt (Some "f8"%string) 8 (Some ((Some (VEC 8)), I64));
  LEnt (Some "f9"%string) 8 (Some ((Some (VEC 9)), I64));
  LEnt (Some "f10"%string) 8 (Some ((Some (VEC 10)), I64));
  LEnt (Some "f11"%string) 8 (Some ((Some (VEC 11)), I64));
  LEnt (Some "f12"%string) 8 (Some ((Some (VEC 12)), I64));
  LEnt (Some "f13"%string) 8 (Some ((Some (VEC 13)), I64));
  LEnt (Some "f14"%string) 8 (Some ((Some (VEC 14)), I64));
  LEnt (Some "f15"%string) 8 (Some ((Some (VEC 15)), I64));
  LEnt (Some "f16"%string) 8 (Some ((Some (VEC 16)), I64));
  LEnt (Some "f17"%string) 8 (Some ((Some (VEC 17)), I64));
  LEnt (Some "f18"%string) 8 (Some ((Some (VEC 18)), I64));
  LEnt (Some "f19"%string) 8 (Some ((Some (VEC 19)), I64));
  LEnt (Some "f20"%string) 8 (Some ((Some (VEC 20)), I64));
  LEnt (Some "f21"%string) 8 (Some ((Some (VEC 21)), I64));
  LEnt (Some "f22"%string) 8 (Some ((Some (VEC 22)), I64));
  LEnt (Some "f23"%string) 8 (Some ((Some (VEC 23)), I64));
  LEnt (Some "f24"%string) 8 (Some ((Some (VEC 24)), I64));
  LEnt (Some "f25"%string) 8 (Some ((Some (VEC 25)), I64));
  LEnt (Some "f26"%string) 8 (Some ((Some (VEC 26)), I64));
  LEnt (Some "f27"%string) 8 (Some ((Some (VEC 27)), I64));
  LEnt (Some "f28"%string) 8 (Some ((Some (VEC 28)), I64));
  LEnt (Some "f29"%string) 8 (Some ((Some (VEC 29)), I64));
  LEnt (Some "f30"%string) 8 (Some ((Some (VEC 30)), I64));
  LEnt (Some "f31"%string) 8 (Some ((Some (VEC 31)), I64))].
(** data/rellume/cpustruct-aarch64.json, complete. *)
Definition desc_a64 : list lent := [
  LEnt (Some "pc"%string) 8 (Some (None, I64));
  LEnt (Some "n"%string) 1 (Some ((Some (FLAG 1)), I1));
  LEnt (Some "z"%string) 1 (Some ((Some (FLAG 0)), I1));
  LEnt (Some "c"%string) 1 (Some ((Some (FLAG 3)), I1));
  LEnt (Some "v"%string) 1 (Some ((Some (FLAG 4)), I1));
  LEnt None 4 None;
  LEnt (Some "x0"%string) 8 (Some ((Some (GP 0)), I64));
  LEnt (Some "x1"%string) 8 (Some ((Some (GP 1)), I64));
  LEnt (Some "x2"%string) 8 (Some ((Some (GP 2)), I64));
  LEnt (Some "x3"%string) 8 (Some ((Some (GP 3)), I64));
  LEnt (Some "x4"%string) 8 (Some ((Some (GP 4)), I64));
  LEnt (Some "x5"%string) 8 (Some ((Some (GP 5)), I64));
  LEnt (Some "x6"%string) 8 (Some ((Some (GP 6)), I64));
  LEnt (Some "x7"%string) 8 (Some ((Some (GP 7)), I64));
  LEnt (Some "x8"%string) 8 (Some ((Some (GP 8)), I64));
  LEnt (Some "x9"%string) 8 (Some ((Some (GP 9)), I64));
  LEnt (Some "x10"%string) 8 (Some ((Some (GP 10)), I64));
  LEnt (Some "x11"%string) 8 (Some ((Some (GP 11)), I64));
  LEnt (Some "x12"%string) 8 (Some ((Some (GP 12)), I64));
  LEnt (Some "x13"%string) 8 (Some ((Some (GP 13)), I64));
  LEnt (Some "x14"%string) 8 (Some ((Some (GP 14)), I64));
  LEnt (Some "x15"%string) 8 (Some ((Some (GP 15)), I64));
  LEnt (Some "x16"%string) 8 (Some ((Some (GP 16)), I64));
  LEnt (Some "x17"%string) 8 (Some ((Some (GP 17)), I64));
  LEnt (Some "x18"%string) 8 (Some ((Some (GP 18)), I64));
  LEnt (Some "x19"%string) 8 (Some ((Some (GP 19)), I64));
  LEnt (Some "x20"%string) 8 (Some ((Some (GP 20)), I64));
  LEnt (Some "x21"%string) 8 (Some ((Some (GP 21)), I64));
  LEnt (Some "x22"%string) 8 (Some ((Some (GP 22)), I64));
  LEnt (Some "x23"%string) 8 (Some ((Some (GP 23)), I64));
  LEnt (Some "x24"%string) 8 (Some ((Some (GP 24)), I64));
  LEnt (Some "x25"%string) 8 (Some ((Some (GP 25)), I64));
  LEnt (Some "x26"%string) 8 (Some ((Some (GP 26)), I64));
  LEnt (Some "x27"%string) 8 (Some ((Some (GP 27)), I64));
  LEnt (Some "x28"%string) 8 (Some ((Some (GP 28)), I64));
  LEnt (Some "x29"%string) 8 (Some ((Some (GP 29)), I64));
  LEnt (Some "x30"%string) 8 (Some ((Some (GP 30)), I64));
  LEnt (Some "sp"%string) 8 (Some ((Some (GP 31)), I64));
  LEnt (Some "tpidr_el0"%string) 8 (Some (None, I64));
  LEnt None 8 None;
  LEnt (Some "v0"%string) 16 (Some ((Some (VEC 0)), V2I64));
  LEnt (Some "v1"%string) 16 (Some ((Some (VEC 1)), V2I64));
  LEnt (Some "v2"%string) 16 (Some ((Some (VEC 2)), V2I64));
  LEnt (Some "v3"%string) 16 (Some ((Some (VEC 3)), V2I64));
  LEnt (Some "v4"%string) 16 (Some ((Some (VEC 4)), V2I64));
  LEnt (Some "v5"%string) 16 (Some ((Some (VEC 5)), V2I64));
  LEnt (Some "v6"%string) 16 (Some ((Some (VEC 6)), V2I64));
  LEnt (Some "v7"%string) 16 (Some ((Some (VEC 7)), V2I64));
  LEnt (Some "v8"%string) 16 (Some ((Some (VEC 8)), V2I64));
  LEnt (Some "v9"%string) 16 (Some ((Some (VEC 9)), V2I64));
  LEnt (Some "v10"%string) 16 (Some ((Some (VEC 10)), V2I64));
  LEnt (Some "v11"%string) 16 (Some ((Some (VEC 11)), V2I64));
  LEnt (Some "v12"%string) 16 (Some ((Some (VEC 12)), V2I64));
  LEnt (Some "v13"%string) 16 (Some ((Some (VEC 13)), V2I64));
  LEnt (Some "v14"%string) 16 (Some ((Some (VEC 14)), V2I64));
  LEnt (Some "v15"%string) 16 (Some ((Some (VEC 15)), V2I64));
  LEnt (Some "v16"%string) 16 (Some ((Some (VEC 16)), V2I64));
  LEnt (Some "v17"%string) 16 (Some ((Some (VEC 17)), V2I64));
  LEnt (Some "v18"%string) 16 (Some ((Some (VEC 18)), V2I64));
  LEnt (Some "v19"%string) 16 (Some ((Some (VEC 19)), V2I64));
  LEnt (Some "v20"%string) 16 (Some ((Some (VEC 20)), V2I64));
  LEnt (Some "v21"%string) 16 (Some ((Some (VEC 21)), V2I64));
  LEnt (Some "v22"%string) 16 (Some ((Some (VEC 22)), V2I64));
  LEnt (Some "v23"%string) 16 (Some ((Some (VEC 23)), V2I64));
  LEnt (Some "v24"%string) 16 (Some ((Some (VEC 24)), V2I64));
  LEnt (Some "v25"%string) 16 (Some ((Some (VEC 25)), V2I64));
  LEnt (Some "v26"%string) 16 (Some ((Some (VEC 26)), V2I64));
  LEnt (Some "v27"%string) 16 (Some ((Some (VEC 27)), V2I64));
  LEnt (Some "v28"%string) 16 (Some ((Some (VEC 28)), V2I64));
  LEnt (Some "v29"%string) 16 (Some ((Some (VEC 29)), V2I64));
  LEnt (Some "v30"%string) 16 (Some ((Some (VEC 30)), V2I64));
  LEnt (Some "v31"%string) 16 (Some ((Some (VEC 31)), V2I64))].

Definition desc (a : arch) : list lent := match a with X86_64 => desc_x86 | RV64 => desc_rv64 | AArch64 => desc_a64 | ArchInvalid => [] end.

(** regfile.cc:47-60 RegisterSetBitIdx. *)
Definition bit_idx (r : areg) : Z := match r with FLAG i => 1 + i | GP i => 8 + i | VEC i => 40 + i end.

(** ** Configuration (config.h:41-109) *)

Inductive cconv := CcInvalid | CcX86 | CcRv64 | CcA64.
(** The fields of LLConfig, values and functions identified by numbers. *)
Record llcfg := LLCfg {
  g_overflow : bool; g_fast_math : bool; g_clobber : bool; g_native_seg : bool; g_verify : bool; g_pic : bool;
  g_arch : arch; g_cconv : cconv; g_sptr_as : Z;
  g_gbase_addr : Z; g_gbase : option Z; g_pcbase_addr : Z; g_pcbase : option Z;
  g_overrides : Z -> option Z;
  g_tail : option Z; g_call : option Z; g_syscall : option Z; g_cpuinfo : option Z; g_marker : option Z;
}.
(** Which architectures were compiled in (RELLUME_WITH macros). *)
Record built := Built { b_x86 : bool; b_rv64 : bool; b_a64 : bool }.
Definition set_arch (c : llcfg) (a : arch) (v : cconv) : llcfg :=
  LLCfg (g_overflow c) (g_fast_math c) (g_clobber c) (g_native_seg c) (g_verify c) (g_pic c) a v (g_sptr_as c)
        (g_gbase_addr c) (g_gbase c) (g_pcbase_addr c) (g_pcbase c) (g_overrides c)
        (g_tail c) (g_call c) (g_syscall c) (g_cpuinfo c) (g_marker c).
(** rellume.cc:109-130 ll_config_set_architecture. *)
Definition set_architecture (b : built) (c : llcfg) (s : string) : llcfg * bool :=
  if (String.eqb s "x86-64" || String.eqb s "x86_64")%string then
    if b_x86 b then (set_arch c X86_64 CcX86, true) else (c, false)
  else if String.eqb s "rv64" then
    if b_rv64 b then (set_arch c RV64 CcRv64, true) else (c, false)
  else if String.eqb s "aarch64" then
    if b_a64 b then (set_arch c AArch64 CcA64, true) else (c, false)
  else (c, false).
(** callconv.cc:107-114 CallConv::ToArch. *)
Definition to_arch (v : cconv) : arch :=
  match v with CcInvalid => ArchInvalid | CcX86 => X86_64 | CcRv64 => RV64 | CcA64 => AArch64 end.

(** A function type as CallConv::FromFunction sees it: calling convention, type of
    each parameter (address space of a pointer), result void and not variadic. *)
Record fnty := FnTy { ft_cc : Z; ft_params : list (option Z); ft_void : bool; ft_vararg : bool }.
(** callconv.cc:38-70 FromFunction (llvm::CallingConv::C is 0; the parameter index
    is 0 for every convention, callconv.cc:99-106). *)
Definition from_function (b : built) (f : fnty) (a : arch) : cconv :=
  let hunch := match a with
    | X86_64 => if b_x86 b then CcX86 else CcInvalid
    | RV64 => if b_rv64 b then CcRv64 else CcInvalid
    | AArch64 => if b_a64 b then CcA64 else CcInvalid
    | ArchInvalid => CcInvalid end in
  match hunch with
  | CcInvalid => CcInvalid
  | h =>
    if negb (ft_cc f =? 0) then CcInvalid else
    match ft_params f with
    | [] => CcInvalid
    | None :: _ => CcInvalid
    | Some _ :: r => match r with [] => if ft_void f && negb (ft_vararg f) then h else CcInvalid | _ => CcInvalid end
    end
  end.
