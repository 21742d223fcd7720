# Design: machine-checked model of aengelke/rellume

All proofs are in Rocq/Coq 8.16.1, under `rocq/theories` (logical name `Verif`).
Rellume is a lifter: it decodes guest machine code (x86-64, RV64, AArch64) and
emits LLVM-IR that operates on a "CPU struct". What a user relies on is that the
*emitted* code behaves like the guest code. The model therefore has three
levels:

1. **Lifter DSL / IR values** (`Bits.v`, `IR.v`). LLVM types, run-time values
   (bit patterns with a separate *poison* value), and the semantics of the LLVM
   instructions and intrinsics the lifter emits, with *immediate UB* and *type
   error* as distinct outcomes. Instruction lifters are Gallina functions from a
   decoded instruction (what the decoder libraries return) to a list of builder
   statements in the order in which the C++ code issues them.
2. **Register file, blocks, CFG, packs** (`RegFile.v`, `Decode.v`, `Cfg.v`,
   `LiftFn.v`, `Layout.v`): the compile-time state machines of the lifter,
   modelled function by function.
3. **Specifications** (`*Spec.v`): independent definitions of the guest ISAs
   (RISC-V manual, Intel SDM, Arm ARM) over `Z`, of reachability in a control
   flow graph, of path-wise "dirty" registers, and so on. They share nothing
   with the model but `Z` arithmetic and the guest memory type.

Property theorems live in `Prop_*.v` files with `Print Assumptions` under each.

## Plan per property

| id | what is modelled | how it is proved |
|----|------------------|------------------|
| C01, C02, C03 | `LiftRV64Instruction` ALU/M cases into DSL statements | case analysis per mnemonic against an ISA spec over `Z`; UB outcome excluded |
| C04 | loads/stores/LR/AMO | same, byte-addressed little-endian memory |
| C05 | SC | refutation for rd=rs2/rd=rs1; proof for the others |
| C06, C45 | branches, JAL, JALR, PC modes | proof; refutation for odd JALR targets |
| C07, C46 | bitmanip | induction over bits/`Z.testbit` extensionality; CLMULR refuted |
| C08, C47, C48 | FSGNJ, FMV, FCLASS, NaN boxing | bit-level proof; FCLASS/boxing refuted |
| C09, C10, C50 | `RegFile` with caching, fold, merge, parent, phi, transforms | refinement to a plain register map; induction over operation sequences |
| C11, C12, C43 | `PCReg` modes, `GetPCValue`, `GetPCBranch`, `AddrPCBase`, `SetIP` | algebra modulo 2^64; nofold refutation |
| C13, C14, C15, C16 | `Function::Decode` worklist with decoder/reader oracles | invariant induction over steps; refutations for the predecessor count |
| C17, C41 | `LiftHelper::Lift`, `ResolveAddr`, the block/branch structure | characterisation of the failing cases; simulation over all executions |
| C18, C19 | `BranchTo`, `FillPhis`, `AddPhi`, register file of PHIs and parents | invariants of the function under construction, then of its executions |
| C20, C21, C22 | `CallConv::Pack/Unpack/Call/Return`, `OptimizePacks` | fixpoint theorem, simulation over paths |
| C23 | the layout generator and the three JSON tables | induction over descriptions; exhaustive evaluation of the tables |
| C24 | `Facet` | exhaustive over the finite facet set (`forallb` lifted) |
| C25-C36, C51, C52 | x86-64 flags, operands, GP and string instructions | case analysis against an SDM spec; refutations for the deviations found |
| C37, C56-C60 | SSE instructions (`lifter-sse.cc`), alignment promises of the emitted accesses, FXSAVE area | lane-wise proofs for vectors of any length, one lemma per lifting function, then uniform step and sequences; refutations for PSHUFHW, over-aligned accesses, out-of-range conversions and the FXSAVE control words |
| C38, C39, C53-C55 | AArch64 main.cc | Hoare-style triples over the statements; one step theorem per instruction group, then uniform step and sequences |
| C40 | `ll_config_set_architecture` | case analysis over strings |
| C42 | `AddrConst` | algebra modulo 2^64 |
| C61 | `lower` (x86-64: `LowerX86.v`): the instructions, register file calls and terminators emitted per block (`Lower.v`), executions of the finished function (`irun`) | forward simulation of `irun` by the statement-level execution of C41, using C09/C10/C18-C22 for the values read and the struct contents; existence of a returning `irun` by running the code block by block (`LowerEx.v`), which never uses an undefined value because of C68,, with termination measured against the guest's steps |
| C62 | RV64 F/D arithmetic, comparisons, conversions, fcsr (`Rv64FpSpec.v`: exact rounding to integers over Z, IEEE operations uninterpreted) | one lemma per lifting function; refutations characterised for all operands; concrete integer FPU (`Rv64FpEx.v`) meets the laws assumed of LLVM's conversions |
| C63, C64, C65 | AArch64 simd.cc and the scalar floating-point part of main.cc (`A64Simd.v`, `A64SimdMem.v`, `A64SimdFp.v`); specification by lanes (`A64SimdSpec.v`, `A64SimdMemSpec.v`, `A64SimdFpSpec.v`) | one lemma per instruction over vectors of any arrangement, then included in the uniform step (C54) and in the simulation theorems (C41, C61); concrete FPU (`A64SimdEx.v`) meets the laws assumed of LLVM's operations; refutations for the corner cases |
| C66 | `Function::Lift`/`ResolveAddr`, ends of blocks, at the statement level (`LiftExit.v`); reasons stated per guest instruction (`Prop_Exit.v`, `Prop_ExitA64.v`, `Prop_ExitX86.v`) | induction over the steps of the lifted function with the decoder's invariants (C13, C14): each exit comes from a `BRet`, an inhibited branch, a computed or unresolved target |
| C67 | `treturn` (`Lower.v`): the emitted function with the exit block ending in the tail call, all other returns as they are | refinement C61 with the place of the return (`lowered_sim_at`: exit block iff the block does not end in ForceReturn) combined with the reasons of C66, per architecture (`Prop_Tail.v`, `Prop_TailX86.v`) |
| C68 | `lower` and `finish` as in C61; dominance by paths in the control flow graph of the emitted code (`Prop_Ssa.v`) | invariant over the statements and blocks lowered: operands are defined earlier in the piece of code or in one whose register file is continued (`Ssa.v`), kept by every register file operation (`SsaHeap.v`) and by filling PHI nodes and stores (`SsaFin.v`); a piece that continues another's register file has it as its only predecessor |
| C69 | CPUID, RDTSC, fences, prefetches (`X86Misc.v`); results of the CPU information function and of the counter are inputs | Hoare-style triples as for C25-C36 |
| C70 | rellume.cc ll_config_* as functions on the record of config.h (`Api.v`), undefined casts as a distinct outcome | induction over sequences of calls, one selector per option |
| C71 | the override branch of the three `Lift` functions (`Rv64.v`, `X86.v`, `Override.v`) | execution of the call; refutations for the PC |
| C72 | the call of a function given by the user: `Call`'s arguments and the struct reloaded afterwards (`ExtCall.v`), `FromFunction` from `Layout.v` | case analysis on the parameter list with C40's theorem on `FromFunction`; refutations for functions of other types |
| C73 | the trace of reader requests of `Decode` (`DecodeReq.v` over `Decode.v`); the reader used for a NULL callback as 15 host reads | induction over the iterations with the invariant of C13; refutation for code near the end of readable memory |
| C74 | sequences of decode and lift calls (`Relift.v`): `Lift`'s effect on the decoded state is one more predecessor of the entry point | simulation relation (equal up to higher counts) preserved by every iteration of `Decode`; then the proofs of C61 over the related state |
| C75 | decoding and lifting (`Decode.v`, `LiftRv.v`, `LiftA64.v`, `LiftX86.v`, `Lower.v`) with different values of the call function option | C16's edge count per instruction, with the calls marked while decoding; refutation by a program whose lifting violates an assertion |
| C44 | RV64 signed quotients | refuted; characterised for all dividends |
| C49 | uniform RV64 step | composition of the above |

Properties whose full statement is false of the code are recorded as `*_refuted`
theorems (a witness, or a universal characterisation of the failing inputs),
together with the strongest true variant, named `*_partial`.

## Trusted base

* Coq 8.16.1 kernel (and the OCaml/C toolchain under it). `Print Assumptions` is
  printed under each theorem in the `Prop_*.v` files; for every theorem named in
  `MANIFEST.json` the answer is *Closed under the global context*: no axiom, not
  even one of the standard library, is used. Nothing outside the standard library is
  imported.
* The decoder libraries (fadec, frvdec, farmdec) are empty directories in the
  checkout. A decoded instruction is a record of the fields the lifters read, and
  the theorems quantify over all records that satisfy a stated well-formedness
  condition (`xwf`, `kwf`, register numbers in range, ...). In `Decode.v` the
  decoder is an arbitrary function.
* LLVM: the semantics of the IR instructions and intrinsics in `IR.v` is our reading
  of the LangRef. Pointers are 64-bit integers (no provenance, `inbounds` ignored);
  `undef` is treated as poison, which allows fewer behaviours to be proved;
  floating-point arithmetic is an uninterpreted type class (`FpuOps`), so theorems
  hold for any such arithmetic; LLVM's own optimisations and IRBuilder constant
  folding are assumed to preserve meaning (where the lifter itself looks at
  whether a value is a constant, the knowledge is an explicit parameter).
* The CPU struct does not alias guest memory (the lifter asserts this with
  `noalias` metadata). Guest memory accesses do not trap. Atomic orderings and
  concurrency are not modelled: memory is sequential.
* The ISA specifications (`Rv64Spec.v`, `X86Spec.v`, `X86StrSpec.v`, `X86SseSpec.v`,
  `A64Spec.v`, `Rv64FpSpec.v`, `A64SimdSpec.v`, `A64SimdMemSpec.v`, `A64SimdFpSpec.v`)
  are our transcription of the manuals.
* External functions (call function, syscall function, instruction overrides) are
  arbitrary functions on the CPU struct (`c_ext`).

## What is modelled

| /repo | model | not modelled |
|-------|-------|--------------|
| `src/facet.{h,cc,inc}` | `Facet.v` | |
| `src/regfile.{h,cc}` | `RegFile.v` (all of `GetReg`, `GetRegFold`, `Set`, `Merge`, transforms, PHIs, parents, dirty bits); `Dsl.v` for the PC register | RAUW of placeholder PHIs is a no-op on values |
| `src/basicblock.cc`, `src/callconv.cc` | `Cfg.v`, `CfgHeap.v`, `CfgLog.v`, `Lower.v`; `Layout.v` for the struct, `ExtCall.v` for calls of the user's functions | attributes and metadata |
| `src/function.cc`, `src/lldecoder.cc` | `Decode.v`, `DecodeReq.v`, `Relift.v`, `DecodeRv.v`, `LiftFn.v`, `Lower.v`, `LiftRv.v`, `LiftA64.v`, `LiftX86.v` (with `X86Run.v`, the function computing what the relational `xrun` of string loops describes, and `X86Shape.v`) | creation of the LLVM function; FXSAVE, FXRSTOR and the control word instructions inside a function |
| `src/lifter-base.h` | `Dsl.v` (SetIP, calls, flags), `X86Cond.v` | `CallExternalFunction` calling conventions |
| `src/rv64/lifter.cc` | `Rv64.v` | fast-math flags; exception flags and rounding modes other than the reset value of frm |
| `src/x86-64/lifter*.cc` | `X86.v` (GP, flags, operands, control flow), `X86StrSpec.v`/`X86.v` (strings), `X86Sse.v` (all of lifter-sse.cc with a case in lifter.cc 211-431), `X86Misc.v` (fences, prefetches, CPUID, RDTSC) | the order of memory accesses, MMX, x87 except the control words |
| `src/a64/main.cc`, `src/a64/simd.cc` | `A64Base.v`, `A64.v`, `A64Simd.v`, `A64SimdMem.v`, `A64SimdFp.v` | half precision is modelled but has no specification; conversions of subnormals to fixed point are not covered |
| `src/rellume.cc`, `src/config.h` | `Layout.v` (architecture names, options), `Api.v` (configuration calls) | wrappers of the function API |
| `data/rellume/*.json`, `cpustruct_parser.py` | `Layout.v` | the generated C header text |

Simplifications are stated in the comment of the definition concerned. Those that
matter most:

* Builder statements (`Dsl.v`) are executed directly on a register map. That the
  register file implements this map (reads return what was last written, with every
  facet) is C09/C10, proved separately about `RegFile.v`; that it still holds across
  blocks is C18/C19, and for the CPU struct C20-C22. C61 composes these theorems
  with C41 into one statement about executions of the emitted function. There `lower`
  is partial: it gives no result where a call on the register file would violate its
  preconditions (assertions in the code), and for functions that write TPIDR_EL0
  (AArch64). Reads of TPIDR_EL0 and of the FS and GS bases are loads from the CPU struct
  (examples in `Prop_IrSys.v`). For x86-64 it covers functions without
  repeated string instructions (`LowerX86.v`), and alignments of SSE accesses are not
  part of the emitted instructions (they are in C58, C59 and C41). Executions are described by the values all
  instructions have (`irun`). That one exists which returns, or else the guest runs on
  for any number of steps, is proved in `LowerEx.v`. It needs that every operand is
  defined before its use on every path and that types agree, which is C68 (`Ssa.v`,
  `SsaHeap.v`, `SsaFin.v`). For examples executions are also computed, by a procedure
  proved sound (`IrExec.v`). External functions must be monotone in undefined
  registers (`ext_ok`), and conditions that IRBuilder folds must have the value they
  are folded to (`fold_ok`).
* A conditional within one instruction (REP, DIV, CMOV with memory) is expressed by
  statement-level control flow, not by IR blocks.
* AArch64: TPIDR_EL0 (kept in the CPU struct) is an extra register cell; STXR always
  succeeds, as in the lifter; the `i32` length of the DC ZVA memset is `i64`;
  encodings the architecture calls CONSTRAINED UNPREDICTABLE are excluded.
* SSE: loads and stores carry the alignment the lifter promises and are undefined at
  other addresses (`arun`); for the other instructions alignment is not modelled.
  Floating-point operations of the specification are the same uninterpreted `fpu_op`,
  so which NaN or rounding results is not covered; comparisons are tied to one
  relation (`fpu_std`). CMPxx immediates above 7 are excluded, as in the lifter.
* RV64 floating point: the specification uses the same `fpu_op` for the IEEE operations
  (min/max: LLVM's minnum/maxnum), so it fixes operands, rounding modes and formats, not
  the arithmetic; conversions to integers are specified exactly, with LLVM's meaning of
  fptosi/fptoui/floor/ceil/round as hypothesis (`fpu_conv`).
* AArch64 SIMD: reductions are folds over the elements; a look-up with a variable index
  (TBL, extractelement) is a chain of selects; SSHL/USHL are modelled lane by lane;
  poison is tracked per register, not per lane (a poison lane makes the register
  undefined). The offset of post-index forms without index register is assumed to be the
  transfer size, as the decoder computes it.
* AArch64 floating point: the IEEE operations are `fpu_op`; comparisons, sign operations,
  rounding to integral, conversion to integers, scaling by powers of two and
  maximum/minimum of numbers are tied to
  exact definitions on bit patterns by the hypothesis `fpu_ieee`. llvm.rint,
  nearbyint and roundeven are one operation; floating-point immediates are given as
  patterns.
* RV64 ECALL without syscall function only advances the PC and leaves.
* String instructions: a segment override on the source is not represented.
* Instruction overrides (`ll_config_set_instr_impl`) are excluded from the
  simulation theorems.

## Findings (all proved of the model; theorem in brackets)

RV64
* F01 DIV/DIVW by -1 yields the dividend instead of its negation [`rv64_div_minus_one_refuted`]
* F02 SC writes rd before it reads rs1/rs2 [`rv64_sc_alias_refuted`]
* F03 JALR does not clear bit 0 of the target [`rv64_jalr_odd_refuted`]
* F04 CLMULR omits the last partial product [`rv64_clmulr_refuted`]
* F05 single-precision results are not NaN-boxed [`rv64_nanbox_refuted`]
* F06 FCLASS writes the class index, not the mask [`rv64_fclass_refuted`]
* F44 FMADD, FMSUB, FNMSUB, FNMADD round the product before the addition [`rv64_fma_refuted`]
* F45 float-to-integer conversions with the dynamic rounding mode truncate [`rv64_fcvt_dyn_refuted`]
* F46 float-to-integer conversions out of range, of NaN or infinities are poison [`rv64_fcvt_range_refuted`]
* F47 static rounding modes violate an assertion or are ignored [`rv64_rounding_mode_refuted`, `rv64_rounding_ignored_refuted`]
* F48 fflags, frm and fcsr read as 0 and ignore writes [`rv64_fcsr_refuted`]
* F12 unsupported instructions leave the lift-time PC in position-independent code [`rv64_pic_unsupported_refuted`, `a64_pic_unsupported_refuted`, `a64_pic_svc_refuted`]

Infrastructure
* F07 reading AH..DH after the register was read as a pointer violates an assertion [`high_byte_after_pointer_refuted`]
* F08 predecessor counts are too small with `ll_func_decode_block`/`_instr` [`pred_counts_decode_block_refuted`]
* F09 a branch to 2^64-1 or 2^64-2 hits DenseMap's reserved keys [`decode_reserved_refuted`]
* F10 `ll_func_decode_block` loses branch targets [`block_starts_decode_block_refuted`]
* F11 a code range reaching 2^64 ends at 0 [`code_ranges_top_refuted`]
* F32 code at address 0 leads to a null dereference [`lift_address_zero_refuted`]
* F33 with a call function, `jal rd` with rd not a link register branches along an edge that was not counted [`lift_edges_counted_refuted`]

x86-64
* F13 LOCK NEG violates an assertion [`x86_lock_neg_refuted`]
* F14 ADC/SBB invert CF/AF/OF when the carry wraps the operand [`x86_adc_flags_refuted`]
* F15 shifts by zero change ZF/CF [`x86_shift_flags_refuted`]
* F16 ROL/ROR leave CF undefined [`x86_rotate_flags_refuted`]
* F17 SHLD/SHRD r16 by 16 keep the destination [`x86_shld16_refuted`]
* F18 IDIV dereferences null for some forms of RDX [`x86_idiv_null_refuted`]
* F19 EIP-relative LEA is not truncated [`x86_lea_eip_refuted`]
* F20 FS/GS with 32-bit addressing: ill-typed IR [`x86_seg32_refuted`]
* F21 RIP-relative with FS/GS violates an assertion [`x86_seg_rip_refuted`]
* F22 JMP/CALL through memory ignore FS/GS [`x86_jmp_seg_refuted`]
* F23 XLATB with 32-bit addressing does not wrap [`x86_xlat32_refuted`]
* F24 POP r16: ill-typed IR [`x86_pop16_refuted`]
* F25 POPF16 pops eight bytes [`x86_popf16_refuted`]
* F26/F27 TZCNT/LZCNT are lifted as BSF/BSR [`x86_tzcnt_refuted`, `x86_lzcnt_refuted`]
* F28 XADD with equal operands [`x86_xadd_same_refuted`]
* F29/F30 CMPXCHG on the accumulator; 32-bit success clears the upper half of RAX [`x86_cmpxchg_refuted`]
* F31 string instructions ignore the address size [`x86_string_addr32_refuted`]

AArch64
* F34 BLR x30 continues behind itself [`a64_blr_x30_refuted`]
* F35 ADCS/SBCS/NGCS leave C or V wrong when the carry wraps the operand [`a64_adcs_corner_refuted`]
* F36 32-bit ADD/SUB/CMP/CMN with UXTX/SXTX: ill-typed IR [`a64_add_ext64_refuted`]
* F37 DMB with a reserved domain violates an assertion [`a64_dmb_reserved_refuted`]
* F38 FMOV Hd, Wn/Xn writes the whole register [`a64_fmov_half_refuted`]
* F49 SSHR/USHR by the element size are poison [`a64_simd_shr_full_refuted`]
* F50 SSHL/USHL by the element size or more are poison [`a64_simd_shift_reg_refuted`]
* F51 FMAX/FMIN (scalar, vector) of a number and a NaN give the number [`a64_fmax_nan_refuted`, `a64_fmaxv_nan_refuted`]
* F52 FMADD, FMLA and their like round the product [`a64_fmadd_refuted`, `a64_fmla_refuted`]
* F53 FMUL by element adds +0.0, losing the sign of -0.0 [`a64_fmul_elem_refuted`]
* F54 scalar single-precision FCMxx compare 64-bit values as doubles [`a64_fcmeq_single_refuted`]
* F55 conversions to integers of NaN or out of range are poison [`a64_fcvt_range_refuted`, `a64_fcvt_vec_range_refuted`]
* F56 half-precision arithmetic is accepted and lifted to FP operations on i16: ill-typed IR [`a64_half_refuted`]
* F57 x86-64 prefetches relative to FS or GS with native segment bases pass a pointer of address space 257 or 256 to llvm.prefetch declared for address space 0: ill-typed IR [`x86_prefetch_segment_refuted`]
* F58 FMAX of zeros of different sign may give -0, FMIN +0: llvm.maxnum and llvm.minnum may return either operand [`a64_fmax_zero_refuted`]
* F59 ll_config_set_syscall_impl and ll_config_set_instr_impl with a null pointer are undefined (llvm::unwrap casts), unlike the other setters of functions [`config_unset_refuted`]
* F60 RV64, AArch64: an overriding function is called with the PC of the overridden instruction (x86-64: of the next one); if it leaves the PC alone at the end of a block, the guest stays there [`rv64_override_nop_refuted`, `a64_override_nop_refuted`]
* F61 the PC an overriding function leaves has no effect if another instruction follows in the block [`override_pc_refuted`]
* F62 a function whose parameter is in another address space than ll_config_set_sptr_addrspace passes the check and gets an ill-typed call [`ext_call_addrspace_refuted`]
* F63 functions that fail the check are called nevertheless: an out-of-bounds write without parameters, a missing argument with two or more, and no register but the PC reloaded afterwards otherwise [`ext_call_unchecked_refuted`]
* F64 with a NULL memory callback decoding copies 15 bytes for every instruction: a fault if an instruction lies in the last 14 bytes of readable memory [`null_reader_refuted`]
* F65 a call function removed (ll_config_set_call_func with NULL) between decoding and lifting: calls become branches that were not counted, the assertion on predecessors fails [`call_function_removed_refuted`]

x86-64 SSE and system
* F39 PSHUFHW replaces all four high words by one and the same word of the source,
  because the loop variable that runs from 4 is also the shift count
  [`sse_pshufhw_refuted`]
* F40 MOVSS, MOVSD, MOVLPx and MOVHPx stores and MINSx, MAXSx, CMPSx, MOVDDUP loads
  promise natural alignment that the architecture does not demand: undefined behaviour
  at other addresses [`sse_overaligned_refuted`, `sse_aligned_partial`]
* F41 CVTTSx2SI of a value that does not fit gives poison instead of the integer
  indefinite value [`sse_cvtt_refuted`]
* F42 FXSAVE stores 0 as FCW and MXCSR, while FSTCW and STMXCSR store 0x37f and 0x1f80
  [`fxsave_control_refuted`, `x86_control_words`]
* F43 SYSCALL without an implementation continues behind itself along an edge that was
  not counted; a block behind it with one counted predecessor takes its registers from
  that one for both edges [`x86_edges_refuted`]

## Mutation testing

`seeded/LOG.jsonl` has one line per wrong program tried: the definition, the edit,
the claim it breaks, the theorems (files) that no longer compile, and what was
tightened if nothing failed.
