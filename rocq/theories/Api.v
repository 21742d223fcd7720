(** Model of the configuration API (/repo/src/rellume.cc:48-130) on the record of
    /repo/src/config.h:41-109. *)

From Coq Require Import ZArith List Bool String.
From Verif Require Import Facet IR Dsl Layout.
Import ListNotations.
Open Scope Z_scope.

(** The calls (/repo/include/rellume/rellume.h:41-70). LLVM values and functions are
    identified by numbers, a null pointer is [None]. *)
Inductive apicall :=
| ll_config_set_sptr_addrspace (n : Z)
| ll_config_enable_overflow_intrinsics (e : bool)
| ll_config_enable_fast_math (e : bool)
| ll_config_enable_verify_ir (e : bool)
| ll_config_set_position_independent_code (e : bool)
| ll_config_set_global_base (a : Z) (v : option Z)
| ll_config_set_pc_base (a : Z) (v : option Z)
| ll_config_set_instr_impl (t : Z) (v : option Z)
| ll_config_set_tail_func (v : option Z)
| ll_config_set_call_func (v : option Z)
| ll_config_set_syscall_impl (v : option Z)
| ll_config_set_cpuinfo_func (v : option Z)
| ll_config_set_instr_marker (v : option Z)
| ll_config_set_call_ret_clobber_flags (e : bool)
| ll_config_set_use_native_segment_base (e : bool)
| ll_config_enable_full_facets (e : bool)
| ll_config_set_architecture (s : string).

(** ll_config_new: the initializers in config.h:41-109; Arch::DEFAULT is x86-64 or, if
    that was not compiled in, INVALID (/repo/src/arch.h:44-50). *)
Definition ll_config_new (b : built) : llcfg :=
  LLCfg false false false false false false (if b_x86 b then X86_64 else ArchInvalid) CcX86 0 0 None 0 None (fun _ => None) None None None None None.

(** The effect of a call. [None]: undefined. llvm::unwrap<llvm::Function> is a cast, which
    does not allow null pointers; cast_or_null does. Simplification: that a value is a
    function is not checked. *)
Definition api_call (b : built) (c : llcfg) (k : apicall) : option llcfg :=
  match k with
  (* 52-54 *)
  | ll_config_set_sptr_addrspace n => Some (LLCfg (g_overflow c) (g_fast_math c) (g_clobber c) (g_native_seg c) (g_verify c) (g_pic c) (g_arch c) (g_cconv c) (n) (g_gbase_addr c) (g_gbase c) (g_pcbase_addr c) (g_pcbase c) (g_overrides c) (g_tail c) (g_call c) (g_syscall c) (g_cpuinfo c) (g_marker c))
  (* 55-57 *)
  | ll_config_enable_overflow_intrinsics e => Some (LLCfg (e) (g_fast_math c) (g_clobber c) (g_native_seg c) (g_verify c) (g_pic c) (g_arch c) (g_cconv c) (g_sptr_as c) (g_gbase_addr c) (g_gbase c) (g_pcbase_addr c) (g_pcbase c) (g_overrides c) (g_tail c) (g_call c) (g_syscall c) (g_cpuinfo c) (g_marker c))
  (* 58-60 *)
  | ll_config_enable_fast_math e => Some (LLCfg (g_overflow c) (e) (g_clobber c) (g_native_seg c) (g_verify c) (g_pic c) (g_arch c) (g_cconv c) (g_sptr_as c) (g_gbase_addr c) (g_gbase c) (g_pcbase_addr c) (g_pcbase c) (g_overrides c) (g_tail c) (g_call c) (g_syscall c) (g_cpuinfo c) (g_marker c))
  (* 61-63 *)
  | ll_config_enable_verify_ir e => Some (LLCfg (g_overflow c) (g_fast_math c) (g_clobber c) (g_native_seg c) (e) (g_pic c) (g_arch c) (g_cconv c) (g_sptr_as c) (g_gbase_addr c) (g_gbase c) (g_pcbase_addr c) (g_pcbase c) (g_overrides c) (g_tail c) (g_call c) (g_syscall c) (g_cpuinfo c) (g_marker c))
  (* 64-66 *)
  | ll_config_set_position_independent_code e => Some (LLCfg (g_overflow c) (g_fast_math c) (g_clobber c) (g_native_seg c) (g_verify c) (e) (g_arch c) (g_cconv c) (g_sptr_as c) (g_gbase_addr c) (g_gbase c) (g_pcbase_addr c) (g_pcbase c) (g_overrides c) (g_tail c) (g_call c) (g_syscall c) (g_cpuinfo c) (g_marker c))
  (* 67-71 *)
  | ll_config_set_global_base a v => Some (LLCfg (g_overflow c) (g_fast_math c) (g_clobber c) (g_native_seg c) (g_verify c) (g_pic c) (g_arch c) (g_cconv c) (g_sptr_as c) (a) (v) (g_pcbase_addr c) (g_pcbase c) (g_overrides c) (g_tail c) (g_call c) (g_syscall c) (g_cpuinfo c) (g_marker c))
  (* 72-75 *)
  | ll_config_set_pc_base a v => Some (LLCfg (g_overflow c) (g_fast_math c) (g_clobber c) (g_native_seg c) (g_verify c) (g_pic c) (g_arch c) (g_cconv c) (g_sptr_as c) (g_gbase_addr c) (g_gbase c) (a) (v) (g_overrides c) (g_tail c) (g_call c) (g_syscall c) (g_cpuinfo c) (g_marker c))
  (* 76-79 *)
  | ll_config_set_instr_impl t v => match v with None => None | _ => Some (LLCfg (g_overflow c) (g_fast_math c) (g_clobber c) (g_native_seg c) (g_verify c) (g_pic c) (g_arch c) (g_cconv c) (g_sptr_as c) (g_gbase_addr c) (g_gbase c) (g_pcbase_addr c) (g_pcbase c) (fun k => if k =? t then v else g_overrides c k) (g_tail c) (g_call c) (g_syscall c) (g_cpuinfo c) (g_marker c)) end
  (* 80-83 *)
  | ll_config_set_tail_func v => Some (LLCfg (g_overflow c) (g_fast_math c) (g_clobber c) (g_native_seg c) (g_verify c) (g_pic c) (g_arch c) (g_cconv c) (g_sptr_as c) (g_gbase_addr c) (g_gbase c) (g_pcbase_addr c) (g_pcbase c) (g_overrides c) (v) (g_call c) (g_syscall c) (g_cpuinfo c) (g_marker c))
  (* 84-87 *)
  | ll_config_set_call_func v => Some (LLCfg (g_overflow c) (g_fast_math c) (g_clobber c) (g_native_seg c) (g_verify c) (g_pic c) (g_arch c) (g_cconv c) (g_sptr_as c) (g_gbase_addr c) (g_gbase c) (g_pcbase_addr c) (g_pcbase c) (g_overrides c) (g_tail c) (v) (g_syscall c) (g_cpuinfo c) (g_marker c))
  (* 88-90 *)
  | ll_config_set_syscall_impl v => match v with None => None | _ => Some (LLCfg (g_overflow c) (g_fast_math c) (g_clobber c) (g_native_seg c) (g_verify c) (g_pic c) (g_arch c) (g_cconv c) (g_sptr_as c) (g_gbase_addr c) (g_gbase c) (g_pcbase_addr c) (g_pcbase c) (g_overrides c) (g_tail c) (g_call c) (v) (g_cpuinfo c) (g_marker c)) end
  (* 91-94 *)
  | ll_config_set_cpuinfo_func v => Some (LLCfg (g_overflow c) (g_fast_math c) (g_clobber c) (g_native_seg c) (g_verify c) (g_pic c) (g_arch c) (g_cconv c) (g_sptr_as c) (g_gbase_addr c) (g_gbase c) (g_pcbase_addr c) (g_pcbase c) (g_overrides c) (g_tail c) (g_call c) (g_syscall c) (v) (g_marker c))
  (* 95-100 *)
  | ll_config_set_instr_marker v => Some (LLCfg (g_overflow c) (g_fast_math c) (g_clobber c) (g_native_seg c) (g_verify c) (g_pic c) (g_arch c) (g_cconv c) (g_sptr_as c) (g_gbase_addr c) (g_gbase c) (g_pcbase_addr c) (g_pcbase c) (g_overrides c) (g_tail c) (g_call c) (g_syscall c) (g_cpuinfo c) (v))
  (* 101-103 *)
  | ll_config_set_call_ret_clobber_flags e => Some (LLCfg (g_overflow c) (g_fast_math c) (e) (g_native_seg c) (g_verify c) (g_pic c) (g_arch c) (g_cconv c) (g_sptr_as c) (g_gbase_addr c) (g_gbase c) (g_pcbase_addr c) (g_pcbase c) (g_overrides c) (g_tail c) (g_call c) (g_syscall c) (g_cpuinfo c) (g_marker c))
  (* 104-106 *)
  | ll_config_set_use_native_segment_base e => Some (LLCfg (g_overflow c) (g_fast_math c) (g_clobber c) (e) (g_verify c) (g_pic c) (g_arch c) (g_cconv c) (g_sptr_as c) (g_gbase_addr c) (g_gbase c) (g_pcbase_addr c) (g_pcbase c) (g_overrides c) (g_tail c) (g_call c) (g_syscall c) (g_cpuinfo c) (g_marker c))
  (* 107-108 *)
  | ll_config_enable_full_facets e => Some c
  (* 109-130 *)
  | ll_config_set_architecture s => Some (fst (set_architecture b c s))
  end.
(** A sequence of calls. *)
Fixpoint api_calls (b : built) (c : llcfg) (l : list apicall) : option llcfg :=
  match l with
  | [] => Some c
  | k :: l => match api_call b c k with Some c => api_calls b c l | None => None end
  end.
