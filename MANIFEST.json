{
 "claims": [
  {
   "property": "C01",
   "status": "proved",
   "theorems": [
    "rv64_int_correct"
   ],
   "note": "All integer instructions with a specification, any registers, immediates, PC base."
  },
  {
   "property": "C02",
   "status": "proved",
   "theorems": [
    "rv64_div_total",
    "rv64_div_correct"
   ],
   "note": "No operand pair triggers UB, and the value is the ISA value incl. division by zero and overflow; the one wrong class is C44."
  },
  {
   "property": "C03",
   "status": "proved",
   "theorems": [
    "rv64_x0_irrelevant"
   ],
   "note": "For every instruction incl. unsupported and overridden ones; external functions are assumed not to look at x0."
  },
  {
   "property": "C04",
   "status": "proved",
   "theorems": [
    "rv64_load_correct",
    "rv64_store_correct",
    "rv64_lr_correct",
    "rv64_amo_correct"
   ],
   "note": "Single-threaded byte memory; AMO ordering field 0..3 (the decoder produces nothing else)."
  },
  {
   "property": "C05",
   "status": "partial",
   "theorems": [
    "rv64_sc_correct_partial",
    "rv64_sc_alias_refuted"
   ],
   "note": "The full statement is false: rd is written before the sources are read (witness). Proved whenever rd is not a source."
  },
  {
   "property": "C06",
   "status": "proved",
   "theorems": [
    "rv64_branch_correct",
    "rv64_jump_correct",
    "rv64_ret_correct",
    "rv64_call_correct"
   ],
   "note": ""
  },
  {
   "property": "C07",
   "status": "proved",
   "theorems": [
    "rv64_bit_correct"
   ],
   "note": "SLLI.UW needs a 6-bit immediate (all the decoder produces)."
  },
  {
   "property": "C08",
   "status": "proved",
   "theorems": [
    "rv64_fpd_correct"
   ],
   "note": ""
  },
  {
   "property": "C09",
   "status": "proved",
   "theorems": [
    "regfile_reads_correct",
    "regfile_reads_total"
   ],
   "note": "All operation sequences over any number of files, any caching decision; IR constant folding is not modelled (values are expressions). High-byte reads are correct when they succeed, see C50."
  },
  {
   "property": "C10",
   "status": "proved",
   "theorems": [
    "lazy_flags_eager",
    "lazy_flag_exists",
    "eager_overflow",
    "eager_aux",
    "eager_carry"
   ],
   "note": ""
  },
  {
   "property": "C11",
   "status": "proved",
   "theorems": [
    "pc_branch_agrees",
    "pc_value_offset"
   ],
   "note": ""
  },
  {
   "property": "C12",
   "status": "partial",
   "theorems": [
    "rv64_pic_correct",
    "rv64_pic_unsupported_refuted",
    "a64_pic_svc_refuted",
    "a64_pic_unsupported_refuted"
   ],
   "note": "Proved for every supported RV64 instruction and base (and, through the PC of the step theorems C51 and C54, x86-64 and AArch64); false for unsupported instructions and AArch64 SVC, which leave the lift-time address (universally characterised)."
  },
  {
   "property": "C13",
   "status": "partial",
   "theorems": [
    "decode_exact",
    "decode_faithful",
    "decode_once",
    "decode_outcome",
    "decode_terminates",
    "decode_reserved_refuted"
   ],
   "note": "Everything but termination is proved for every call that returns. It returns if finitely many addresses are reachable, except that reachable addresses 2^64-1 and 2^64-2 violate an assertion of the address map (refuted). The memory reader and the instruction decoder are an arbitrary function."
  },
  {
   "property": "C14",
   "status": "proved",
   "theorems": [
    "block_starts",
    "blocks_contiguous",
    "block_starts_decode_block_refuted"
   ],
   "note": "The first half is false for ll_func_decode_block, which drops branch targets (refuted)."
  },
  {
   "property": "C15",
   "status": "proved",
   "theorems": [
    "code_ranges_exact",
    "code_ranges_top_refuted"
   ],
   "note": ""
  },
  {
   "property": "C16",
   "status": "partial",
   "theorems": [
    "pred_counts_exact",
    "pred_counts_upper",
    "pred_counts_decode_block_refuted",
    "lift_edges_counted_partial",
    "lift_edges_counted_refuted",
    "a64_edges_counted",
    "x86_edges_counted_partial",
    "x86_edges_refuted"
   ],
   "note": "Counts equal the edges of the decoded code for ll_func_decode_cfg, and RV64, AArch64 and x86-64 lifting create no more (lift_edges_counted_partial, a64_edges_counted, x86_edges_counted_partial). False for ll_func_decode_block and ll_func_decode_instr, which under-count, and, with a call function, for a JAL whose link register is not x0/x1/x5 (lift_edges_counted_refuted), and for SYSCALL without a system call implementation (x86_edges_refuted)."
  },
  {
   "property": "C17",
   "status": "partial",
   "theorems": [
    "lift_null_iff",
    "rv64_lift_null_iff",
    "unsupported_exits",
    "a64_lift_null_iff",
    "a64_unsupported_exits",
    "x86_lift_null_iff",
    "x86_unsupported_exits",
    "lift_address_zero_refuted"
   ],
   "note": "lift_null_iff: any architecture, all decoded lists; rv64_lift_null_iff, unsupported_exits, a64_lift_null_iff, a64_unsupported_exits, x86_lift_null_iff, x86_unsupported_exits: all programs of the three architectures. False for code at address 0 (null dereference, lift_address_zero_refuted); under position-independent code the PC left by an unsupported instruction is the lift-time one (C12), so unsupported_exits needs it to be the same."
  },
  {
   "property": "C18",
   "status": "proved",
   "theorems": [
    "phi_construction_complete"
   ],
   "note": "For every function built through the block interface, any order of visiting the blocks. That no block gets more predecessors than announced is a hypothesis (C16)."
  },
  {
   "property": "C19",
   "status": "proved",
   "theorems": [
    "values_across_blocks",
    "all_paths_executable"
   ],
   "note": "For all paths, including loops and calls; all_paths_executable shows every path of the graph is covered."
  },
  {
   "property": "C20",
   "status": "proved",
   "theorems": [
    "cpu_struct_in_sync",
    "all_paths_executable"
   ],
   "note": "All mapped registers except the PC, whose store is emitted directly before each call and return."
  },
  {
   "property": "C21",
   "status": "proved",
   "theorems": [
    "dirty_flow_exact"
   ],
   "note": ""
  },
  {
   "property": "C22",
   "status": "proved",
   "theorems": [
    "unmodified_not_stored"
   ],
   "note": "For stores in reachable blocks."
  },
  {
   "property": "C23",
   "status": "proved",
   "theorems": [
    "layout_sound",
    "cpu_struct_layout"
   ],
   "note": ""
  },
  {
   "property": "C24",
   "status": "proved",
   "theorems": [
    "facet_size_type",
    "facet_roundtrip",
    "facet_of_type",
    "facet_resolve"
   ],
   "note": ""
  },
  {
   "property": "C25",
   "status": "proved",
   "theorems": [
    "x86_jcc_correct",
    "x86_setcc_correct",
    "x86_cmovcc_correct",
    "x86_cc_complementary",
    "x86_cmp_jcc"
   ],
   "note": ""
  },
  {
   "property": "C26",
   "status": "partial",
   "theorems": [
    "x86_alu_correct",
    "x86_lock_neg_refuted"
   ],
   "note": "Proved for every instruction form but LOCK NEG, for which lifting hits an assertion (refuted for all states)."
  },
  {
   "property": "C27",
   "status": "partial",
   "theorems": [
    "x86_adc_correct_partial",
    "x86_adc_exact",
    "x86_adc_flags_refuted"
   ],
   "note": "Results are proved for all inputs; flags are proved exact outside the carry-in corner cases, in each of which the flag is proved inverted."
  },
  {
   "property": "C28",
   "status": "partial",
   "theorems": [
    "x86_shift_correct_partial",
    "x86_rotate_correct_partial",
    "x86_shiftdouble_correct_partial",
    "x86_shift_flags_refuted",
    "x86_rotate_flags_refuted",
    "x86_shld16_refuted"
   ],
   "note": "Results are proved for every count (SHLD/SHRD: masked count other than the width); flags for SHL/SHR/SAR with a non-zero count. False: flags change for count zero, rotates do not set CF/OF, 16-bit SHLD by 16."
  },
  {
   "property": "C29",
   "status": "partial",
   "theorems": [
    "x86_mul_correct",
    "x86_div_correct",
    "x86_idiv_null_refuted"
   ],
   "note": "Proved for all operands; the one exception is at lift time: IDIV dereferences a null pointer if RDX is known to be RAX shifted by a non-constant amount."
  },
  {
   "property": "C30",
   "status": "proved",
   "theorems": [
    "x86_subreg_write",
    "x86_subreg_read",
    "x86_gp_block"
   ],
   "note": "Histories: x86_gp_block composes the step for any sequence of instructions."
  },
  {
   "property": "C31",
   "status": "partial",
   "theorems": [
    "x86_address_load",
    "x86_address_store",
    "x86_lea_correct",
    "x86_lea_eip_refuted",
    "x86_seg32_refuted",
    "x86_seg_rip_refuted",
    "x86_jmp_seg_refuted",
    "x86_xlat32_refuted"
   ],
   "note": "Proved for all operands outside the refuted forms (EIP-relative LEA, FS/GS with 32-bit addresses or RIP, FS/GS on JMP/CALL, wrapping 32-bit XLAT)."
  },
  {
   "property": "C32",
   "status": "partial",
   "theorems": [
    "x86_push_correct",
    "x86_pop_correct_partial",
    "x86_stack_correct_partial",
    "x86_call_jump",
    "x86_call_function",
    "x86_ret_function",
    "x86_syscall_correct",
    "x86_pop16_refuted",
    "x86_popf16_refuted"
   ],
   "note": "Proved for all states; false for 16-bit POP and POPF (refuted)."
  },
  {
   "property": "C33",
   "status": "proved",
   "theorems": [
    "x86_flags_image",
    "x86_pushf_popf",
    "x86_lahf_sahf_correct"
   ],
   "note": ""
  },
  {
   "property": "C34",
   "status": "partial",
   "theorems": [
    "x86_string_correct_partial",
    "x86_rep_zero",
    "x86_rep_scas_search",
    "x86_rep_stosb_fill",
    "x86_string_addr32_refuted"
   ],
   "note": "Proved for all counts, sizes, directions and prefixes with 64-bit addresses (executions exist and are unique); false with the address-size prefix, which the lifter ignores."
  },
  {
   "property": "C35",
   "status": "proved",
   "theorems": [
    "x86_bit_correct",
    "x86_bt_memory",
    "x86_scan_correct"
   ],
   "note": ""
  },
  {
   "property": "C36",
   "status": "partial",
   "theorems": [
    "x86_xchg_correct",
    "x86_xadd_correct_partial",
    "x86_cmpxchg_correct_partial",
    "x86_xadd_same_refuted",
    "x86_cmpxchg_refuted"
   ],
   "note": "False for XADD with equal operands, CMPXCHG on the accumulator and successful 32-bit CMPXCHG with a non-zero upper half of RAX."
  },
  {
   "property": "C37",
   "status": "partial",
   "theorems": [
    "sse_int_correct_partial",
    "sse_pshufhw_refuted"
   ],
   "note": "All packed integer instructions, operand values, immediates and addressing forms except PSHUFHW, whose lifted result is characterised and wrong."
  },
  {
   "property": "C38",
   "status": "partial",
   "theorems": [
    "a64_dp_partial",
    "a64_cmp_correct",
    "a64_adcs_corner_refuted",
    "a64_add_ext64_refuted",
    "a64_dmb_reserved_refuted"
   ],
   "note": "All operands, shifts, extensions, fields, conditions; false for the carry/overflow flags of ADCS/SBCS/NGCS when the carry wraps the second operand (characterised universally), for 32-bit ADD/SUB/CMP/CMN with UXTX/SXTX (ill-typed IR)."
  },
  {
   "property": "C39",
   "status": "partial",
   "theorems": [
    "a64_branch_correct",
    "a64_call_jump_partial",
    "a64_call_function_partial",
    "a64_ret_function",
    "a64_blr_x30_refuted",
    "a64_svc_partial"
   ],
   "note": "All registers, conditions and values except BLR x30, which is proved to continue behind itself."
  },
  {
   "property": "C40",
   "status": "proved",
   "theorems": [
    "set_architecture_correct",
    "selections_consistent",
    "from_function_correct"
   ],
   "note": ""
  },
  {
   "property": "C41",
   "status": "partial",
   "theorems": [
    "rv64_function_simulates",
    "a64_function_simulates",
    "x86_function_simulates"
   ],
   "note": "All RV64, AArch64 and x86-64 programs, states and executions of the driver model (blocks, branches, calls, returns, system calls) over the builder statements; hypotheses exclude the instructions proved to deviate (C44-C48, C62, C63, C65, SC aliasing, C38, C53), code that is modified, and RV64 CSR instructions; AArch64 includes SIMD and floating point (without the cases refuted in C63 and C65); x86-64 includes SSE and string instructions but not FXSAVE, FXRSTOR and the control word instructions (C60). The SSA level (PHIs, CPU struct accesses) is added by C61."
  },
  {
   "property": "C42",
   "status": "proved",
   "theorems": [
    "addr_const_correct",
    "addr_const_identity"
   ],
   "note": ""
  },
  {
   "property": "C43",
   "status": "partial",
   "theorems": [
    "call_return_check",
    "x86_call_function",
    "a64_call_function_partial"
   ],
   "note": "The AArch64 instance excludes BLR x30 (C39)."
  },
  {
   "property": "C44",
   "status": "partial",
   "theorems": [
    "rv64_div_total",
    "rv64_div_minus_one_refuted"
   ],
   "note": "The statement is false of the code: the quotient by -1 is the dividend. Proved: wrong for every dividend other than 0 and the minimum; right in all other cases (rv64_div_correct)."
  },
  {
   "property": "C45",
   "status": "partial",
   "theorems": [
    "rv64_jalr_odd_refuted",
    "rv64_jump_correct"
   ],
   "note": "The statement is false of the code for every odd sum; even sums are proved."
  },
  {
   "property": "C46",
   "status": "partial",
   "theorems": [
    "rv64_clmulr_correct_partial",
    "rv64_clmulr_refuted"
   ],
   "note": "False for every rs2 with bit 63 set and rs1 non-zero; proved otherwise."
  },
  {
   "property": "C47",
   "status": "partial",
   "theorems": [
    "rv64_fps_low_partial",
    "rv64_nanbox_refuted"
   ],
   "note": "False for every single-precision result: the upper half is zero. The low half is proved right."
  },
  {
   "property": "C48",
   "status": "partial",
   "theorems": [
    "rv64_fclass_index_partial",
    "rv64_fclass_refuted"
   ],
   "note": "False for all operands: the class index is written instead of the mask. The index is proved right."
  },
  {
   "property": "C49",
   "status": "proved",
   "theorems": [
    "rv64_step_correct"
   ],
   "note": "The exceptions are exactly those of C05, C44-C48, C62 and calls/returns with a call function (C06)."
  },
  {
   "property": "C50",
   "status": "partial",
   "theorems": [
    "high_byte_read_partial",
    "high_byte_after_pointer_refuted"
   ],
   "note": "The statement is false of the code: after the register was used as an address the read hits an assertion. Proved: that is the only way to fail, and successful reads are right."
  },
  {
   "property": "C51",
   "status": "proved",
   "theorems": [
    "x86_gp_step",
    "x86_gp_block"
   ],
   "note": ""
  },
  {
   "property": "C52",
   "status": "partial",
   "theorems": [
    "x86_tzcnt_correct_partial",
    "x86_tzcnt_refuted",
    "x86_lzcnt_refuted"
   ],
   "note": "False: TZCNT and LZCNT are lifted like BSF and BSR."
  },
  {
   "property": "C53",
   "status": "proved",
   "theorems": [
    "a64_mem_correct"
   ],
   "note": "CONSTRAINED UNPREDICTABLE encodings (writeback with base = data register of a store, load pair with equal destinations) are excluded; a store-exclusive always succeeds, as in the lifter; orderings and alignment not modelled."
  },
  {
   "property": "C54",
   "status": "partial",
   "theorems": [
    "a64_step_partial",
    "a64_sequence_partial"
   ],
   "note": "Every modelled instruction and sequence including SIMD and floating point, except the cases refuted in C38, C39, C55, C63, C65 and SVC."
  },
  {
   "property": "C55",
   "status": "partial",
   "theorems": [
    "a64_sys_partial",
    "a64_fmov_half_refuted",
    "a64_dmb_reserved_refuted"
   ],
   "note": "False for FMOV Hd, Wn/Xn and for DMB with a reserved domain."
  },
  {
   "property": "C56",
   "status": "partial",
   "theorems": [
    "sse_move_correct_partial",
    "sse_unaligned_moves",
    "sse_overaligned_refuted"
   ],
   "note": "Holds if the operands of the scalar stores (MOVSS, MOVSD, MOVLPx, MOVHPx) and MOVDDUP loads are naturally aligned; otherwise the lifted access is undefined."
  },
  {
   "property": "C57",
   "status": "partial",
   "theorems": [
    "sse_fp_correct_partial",
    "sse_cvtt_refuted",
    "sse_overaligned_refuted"
   ],
   "note": "IEEE operations are uninterpreted and shared with the specification; truncating conversions must fit (refuted otherwise), MINSx/MAXSx/CMPSx memory operands must be naturally aligned (refuted otherwise); CMPxx predicates 0-7."
  },
  {
   "property": "C58",
   "status": "partial",
   "theorems": [
    "sse_aligned_partial",
    "sse_overaligned_refuted",
    "sse_unaligned_moves"
   ],
   "note": "The lifted code is defined exactly for naturally aligned operands; for the listed scalar instructions the architecture demands nothing."
  },
  {
   "property": "C59",
   "status": "partial",
   "theorems": [
    "sse_step_partial",
    "sse_sequence_partial",
    "sse_all_listed"
   ],
   "note": "All instructions and sequences except PSHUFHW, over-aligned accesses and conversions that do not fit."
  },
  {
   "property": "C60",
   "status": "partial",
   "theorems": [
    "fxsave_correct_partial",
    "fxrstor_correct",
    "fx_roundtrip",
    "x86_control_words",
    "fxsave_control_refuted"
   ],
   "note": "Everything but the agreement of the control words, which is false for FXSAVE."
  },
  {
   "property": "C61",
   "status": "partial",
   "theorems": [
    "emitted_code_refines_statements",
    "rv64_emitted_code_simulates",
    "a64_emitted_code_simulates",
    "x86_emitted_code_simulates",
    "emitted_code_returns",
    "rv64_emitted_code_returns",
    "a64_emitted_code_returns",
    "x86_emitted_code_returns"
   ],
   "note": "For every block list, program, state and execution of the emitted code: no undefined behaviour, and what is returned is a reachable guest state; an execution returns, or the guest runs for more than any number of steps. Hypotheses exclude the deviating and unmodelled instructions as in C41, require that the lowering does not stop at a violated precondition, that external functions are monotone and that folded conditions are folded to their value. Functions that write TPIDR_EL0 are not lowered. x86-64 without repeated string instructions (blocks inside one instruction) and without alignments."
  },
  {
   "property": "C62",
   "status": "partial",
   "theorems": [
    "rv64_fp_correct_partial",
    "rv64_fp_compare_correct",
    "rv64_fp_single_low_partial",
    "rv64_fp_single_refuted",
    "rv64_fma_refuted",
    "rv64_fcvt_dyn_refuted",
    "rv64_fcvt_range_refuted",
    "rv64_rounding_mode_refuted",
    "rv64_rounding_ignored_refuted",
    "rv64_fcsr_zero_partial",
    "rv64_fcsr_refuted"
   ],
   "note": "Proved for double precision with the dynamic mode, comparisons, and in-range conversions with static modes RTZ, RDN, RUP, RMM. False, characterised for all operands: single-precision results are not NaN-boxed, multiply-add rounds twice, the dynamic mode truncates in conversions, out-of-range conversions are poison, static modes fail an assertion or are ignored, fcsr reads 0."
  },
  {
   "property": "C63",
   "status": "partial",
   "theorems": [
    "a64_simd_int_partial",
    "a64_simd_int_rejected",
    "a64_simd_shr_full_refuted",
    "a64_simd_shift_reg_refuted"
   ],
   "note": "Proved for every integer SIMD instruction, arrangement and register content, except: rounding shifts and CLS are rejected by the lifter; right shifts by the element size and register shifts by the element size or more are poison (refuted); scalar forms of 8 to 32 bits of the saturation-free operations do not exist and are excluded."
  },
  {
   "property": "C64",
   "status": "proved",
   "theorems": [
    "a64_simd_mem_correct"
   ],
   "note": "All structure loads and stores; memory is flat and sequential, post-index offsets without register are the transfer size (decoder)."
  },
  {
   "property": "C65",
   "status": "partial",
   "theorems": [
    "a64_fp_vector_partial",
    "a64_fp_scalar_partial",
    "a64_fccmp_partial",
    "a64_fmax_nan_refuted",
    "a64_fmaxv_nan_refuted",
    "a64_fmax_zero_refuted",
    "a64_fmadd_refuted",
    "a64_fmla_refuted",
    "a64_fmul_elem_refuted",
    "a64_fcmeq_single_refuted",
    "a64_fcvt_range_refuted",
    "a64_fcvt_vec_range_refuted",
    "a64_half_refuted"
   ],
   "note": "Proved for single and double precision under fpu_ieee (LLVM comparisons, conversions, rounding, max/min, scaling by powers of two as IEEE), fixed-point conversions included, outside the refuted cases: NaN and zeros of different sign in FMAX/FMIN, multiply-add rounded twice, FMUL by element loses -0, scalar single compares, out-of-range conversions. Missing: conversions of subnormals to fixed point, half precision."
  },
  {
   "property": "C66",
   "status": "partial",
   "theorems": [
    "rv64_function_left_partial",
    "a64_function_left",
    "x86_function_left_partial"
   ],
   "note": "For every reachable exit of the lifted function, at the level of the statement model: the guest state, and one of the listed reasons. Hypotheses: on x86-64 system calls have an implementation; a RV64 JAL with another link register than x0, x1, x5 also ends the function when a call function is set, which the specification lists as its own case."
  },
  {
   "property": "C67",
   "status": "partial",
   "theorems": [
    "rv64_tail_function_partial",
    "a64_tail_function",
    "x86_tail_function_partial"
   ],
   "note": "For every execution of the emitted function that returns, under the hypotheses of C61 and C66. Returns are those of call-return mode. Not modelled: a tail function whose calling convention differs from that of the lifted function; that the call is a musttail call (stack use). The functions to which the theorems apply are those of C61."
  },
  {
   "property": "C68",
   "status": "proved",
   "theorems": [
    "values_defined_once",
    "operands_dominated",
    "operands_typed",
    "terminators_dominated",
    "exit_pc_once",
    "exit_pc_dominated",
    "exit_pc_complete",
    "stores_dominated",
    "phis_dominated"
   ],
   "note": "For every function the lowering of C61 has a result for, and every result of finishing it. Dominance is defined by paths in the control flow graph of the emitted code. Not part of it: that a PHI node has exactly one entry per predecessor (C18) and that a PHI node used by an instruction is among those that are finished (operationally in C61)."
  },
  {
   "property": "C69",
   "status": "partial",
   "theorems": [
    "x86_cpuid_correct",
    "x86_cpuid_none",
    "x86_rdtsc_correct",
    "x86_fence_correct",
    "x86_prefetch_partial",
    "x86_prefetch_segment_refuted"
   ],
   "note": "CPUID, RDTSC and fences in full (the function for CPU information is a function of its two arguments without side effects; one thread). Prefetches except those relative to FS or GS with native segment bases, which are lifted to ill-typed calls (refuted), and the addresses C31 excludes."
  },
  {
   "property": "C70",
   "status": "partial",
   "theorems": [
    "config_options_latest",
    "config_calls_defined",
    "config_cconv_arch",
    "config_unset_refuted"
   ],
   "note": "All sequences of calls. Refuted: the syscall implementation and overridden instructions cannot be unset (cast of a null pointer)."
  },
  {
   "property": "C71",
   "status": "partial",
   "theorems": [
    "x86_override_correct",
    "rv64_override_partial",
    "a64_override_partial",
    "rv64_override_nop_refuted",
    "a64_override_nop_refuted",
    "override_pc_refuted"
   ],
   "note": "x86-64 call proved as stated. Refuted: on RV64 and AArch64 the function gets the PC of the overridden instruction itself, and stays there if it leaves the PC alone; on all three the PC it leaves has no effect if another instruction follows in the block."
  },
  {
   "property": "C72",
   "status": "partial",
   "theorems": [
    "call_typed_iff",
    "ext_call_partial",
    "ext_call_addrspace_refuted",
    "ext_call_unchecked_refuted"
   ],
   "note": "Functions void(ptr) of the C convention with the configured address space: called with their type, all registers reloaded. Refuted: functions of other types, conventions or address spaces are not rejected."
  },
  {
   "property": "C73",
   "status": "partial",
   "theorems": [
    "decode_requests_once",
    "decode_requests_reached",
    "null_reader_partial",
    "null_reader_refuted"
   ],
   "note": "Requests proved for all modes (once) and ll_func_decode_cfg (reached only). Refuted: without callback 15 bytes are read at every instruction, also behind the last one."
  },
  {
   "property": "C74",
   "status": "partial",
   "theorems": [
    "lift_keeps_decoded",
    "rv64_relift_partial",
    "a64_relift_partial",
    "x86_relift_partial"
   ],
   "note": "All sequences of decode and lift calls. The simulation has the hypotheses of C61, in particular that the statements are emitted without a violated assertion (shown for an example lifted three times)."
  },
  {
   "property": "C75",
   "status": "partial",
   "theorems": [
    "call_function_added_partial",
    "a64_call_function_added",
    "x86_call_function_added_partial",
    "call_function_removed_refuted"
   ],
   "note": "Call function set after decoding: proved for AArch64, for RV64 programs without the JAL forms of C16, and for x86-64 programs whose SYSCALLs have an implementation. Refuted: call function removed after decoding."
  }
 ]
}