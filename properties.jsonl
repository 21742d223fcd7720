{"id": "C01", "title": "RV64 integer instructions match the ISA", "statement": "For every RV64I/M instruction that is lifted (ALU, ALU-immediate, word forms, shifts, LUI/AUIPC, multiply, unsigned divide, remainder; the signed quotients are C02 and C44), running the lifted code on any CPU struct leaves exactly the architectural value in rd, leaves every other register and guest memory unchanged, and advances the PC by the instruction length.", "quantifier": "all supported integer instructions, all register numbers (including aliasing rd=rs1=rs2 and x0), all immediates, all 64-bit register contents", "why_tests_cant": "2^64..2^128 operand values per instruction and all register aliasings; tests check a handful of literals", "anchors": ["src/rv64/lifter.cc:Lifter::Lift 446-487", "src/rv64/lifter.cc:LiftBinOpR/LiftBinOpI/LiftShift/LiftMulh/LiftDivRem 82-172"]}
{"id": "C02", "title": "RV64 division never triggers undefined behaviour", "statement": "Code lifted for DIV/DIVU/REM/REMU (and W forms) never executes an LLVM division with a zero divisor or an overflowing signed division, and yields the values the ISA prescribes for division by zero and signed overflow.", "quantifier": "all 64-bit dividend/divisor pairs, signed and unsigned, 32- and 64-bit, quotient and remainder", "why_tests_cant": "undefined behaviour in generated IR is not observable by running a test binary; the claim is about all operand pairs", "anchors": ["src/rv64/lifter.cc:LiftDivRem 127-172"]}
{"id": "C03", "title": "RV64 register x0 is hard-wired to zero", "statement": "No lifted RV64 instruction ever changes the x0 slot, and any read of x0 behaves as reading zero, even if the caller put garbage into the x0 field of the CPU struct.", "quantifier": "all instructions (including unsupported ones), all register states", "why_tests_cant": "needs every instruction in every operand configuration", "anchors": ["src/rv64/lifter.cc:LoadGp 45", "src/rv64/lifter.cc:StoreGp 56"]}
{"id": "C04", "title": "RV64 loads, stores, LR and AMO access exactly the architectural bytes", "statement": "Lifted loads/stores read or write exactly the bytes at rs1+imm (modulo 2^64) with the right width, sign- or zero-extension and byte order; AMO instructions perform the read-modify-write the ISA defines and return the sign-extended old value.", "quantifier": "all widths, addresses, immediates, memory contents", "why_tests_cant": "unbounded memory contents and addresses", "anchors": ["src/rv64/lifter.cc:LiftLoad/LiftStore/LiftAmo 107-187", "src/rv64/lifter.cc:Addr 66-80"]}
{"id": "C05", "title": "RV64 store-conditional", "statement": "SC.W/SC.D store the value rs2 had before the instruction at the address rs1 had before the instruction and set rd to the success code, for all operand registers.", "quantifier": "all register triples (including rd=rs2 and rd=rs1) and states", "why_tests_cant": "aliasing cases are register-triple specific; tests use distinct registers", "anchors": ["src/rv64/lifter.cc:Lifter::Lift 510-513"]}
{"id": "C06", "title": "RV64 conditional branches, JAL and JALR compute the architectural next PC", "statement": "After a lifted branch, JAL or JALR to an even address the PC value and the link register equal what the ISA prescribes, the link register being written after the target is computed; with a call function configured, calls hand exactly this state to the function and returns leave the lifted function in it. (JALR to an odd sum: C45.)", "quantifier": "all branch kinds, register values, immediates and link-register choices", "why_tests_cant": "requires all operand values, in particular odd JALR targets", "anchors": ["src/rv64/lifter.cc:LiftBranch 122", "src/rv64/lifter.cc:Lifter::Lift 390-417"]}
{"id": "C07", "title": "RV64 bit-manipulation instructions match the Zba/Zbb/Zbc/Zbs definitions", "statement": "SH[123]ADD(.UW), ADD.UW, SLLI.UW, ANDN/ORN/XNOR, CLZ/CTZ/CPOP(W), MAX/MIN(U), SEXT/ZEXT, ROL/ROR(I/W), ORC.B, REV8, CLMUL/CLMULH, BCLR/BEXT/BINV/BSET(I) return the value the specification defines. (CLMULR: C46.)", "quantifier": "all operand values and shift amounts", "why_tests_cant": "2^128 operand pairs", "anchors": ["src/rv64/lifter.cc:LiftShNAdd..LiftCLMul 290-355", "src/rv64/lifter.cc:Lifter::Lift 603-645"]}
{"id": "C08", "title": "RV64 floating-point bit-level instructions", "statement": "FSGNJ/FSGNJN/FSGNJX, FMV in double precision, FMV.X.W and the D loads and F/D stores produce the bit patterns the ISA defines. (NaN boxing: C47; FCLASS: C48.)", "quantifier": "all 2^32/2^64 bit patterns", "why_tests_cant": "NaN payloads, subnormals, and upper register halves are not enumerable in tests", "anchors": ["src/rv64/lifter.cc:LiftFsgn 231", "src/rv64/lifter.cc:LiftFclass 248-281", "src/rv64/lifter.cc:Lifter::Lift 535-602"]}
{"id": "C09", "title": "A register read returns the most recent (partial) write", "statement": "Whatever sequence of full writes, partial writes (low 8/16/32/64/128 bits) and reads at whatever access width the guest code performs within a straight-line path (spanning any chain of single-predecessor blocks), a read returns exactly the bits last written, with the bits not covered by partial writes preserved and the bits above a zero-extending write zero.", "quantifier": "all sequences of register operations, all access widths/types, all caching decisions, all chain depths", "why_tests_cant": "unbounded histories of operations interacting with lazily cached values", "anchors": ["src/regfile.cc:GetRegFold 330-463", "src/regfile.cc:GetReg 465-567", "src/regfile.cc:Set/Merge 569-590"]}
{"id": "C10", "title": "Lazily evaluated flags equal eagerly computed flags", "statement": "A status flag whose computation is deferred until first use (zero, sign, carry, overflow, aux-carry, parity) has the value it would have had if computed at the point of the flag-setting instruction, regardless of what was overwritten in between.", "quantifier": "all deferral lengths, operand values and widths", "why_tests_cant": "depends on histories between definition and use", "anchors": ["src/regfile.cc:Register::canonicalize 145-189"]}
{"id": "C11", "title": "PC value and branch decision agree", "statement": "At a block end the address of the block to which control is transferred and the PC stored on exit agree: if control goes to the code at address A then the PC value at that point is A (relative to the PC base in position-independent mode), and if control leaves the function the stored PC is the architectural next PC.", "quantifier": "all PC update modes, all addresses and bases modulo 2^64", "why_tests_cant": "address arithmetic with an arbitrary run-time base", "anchors": ["src/regfile.cc:GetPCValue/GetPCBranch 598-633", "src/regfile.cc:AddrPCBase 289"]}
{"id": "C12", "title": "Position-independent lifting is base independent", "statement": "With position_independent_code (or an explicit pc base), every PC value the lifted function leaves behind is the run-time base plus the offset of the instruction, for every base, including when lifting stops at an unsupported instruction.", "quantifier": "all bases, all instruction offsets, all ways of leaving the function", "why_tests_cant": "quantifies over the run-time load address", "anchors": ["src/lifter-base.h:SetIP 98-106", "src/function.cc:Lift 147-165"]}
{"id": "C13", "title": "Decoding terminates and is exact", "statement": "ll_func_decode_cfg terminates whenever the set of addresses reachable by fall-through and direct branches is finite, decodes every instruction reachable from the entry address through decodable instructions, decodes nothing else, and records each address at most once.", "quantifier": "all memory contents, all memory-reader callbacks, all control-flow graphs (loops, overlapping instructions)", "why_tests_cant": "arbitrary control-flow graphs", "anchors": ["src/lldecoder.cc:Function::Decode 156-232"]}
{"id": "C14", "title": "Block boundaries are sound", "statement": "After any sequence of ll_func_decode_cfg calls every address that is the direct target of a decoded branch (and was decoded itself) starts a basic block; after any sequence of decode calls every basic block is a contiguous run of instructions in which only the last one can transfer control.", "quantifier": "all control-flow graphs, all decode orders, repeated decode calls", "why_tests_cant": "block splitting depends on decode order of arbitrary graphs", "anchors": ["src/lldecoder.cc:Function::Decode 156-232"]}
{"id": "C15", "title": "Code ranges describe exactly the decoded bytes", "statement": "After any sequence of decode calls on code that does not reach the last byte of the address space, ll_func_ranges returns non-empty [start,end) ranges whose union is exactly the bytes of the decoded instructions, followed by a single {0,0} sentinel as the last entry.", "quantifier": "all programs, all sequences of decode calls", "why_tests_cant": "histories of decode calls on arbitrary graphs", "anchors": ["src/lldecoder.cc:Function::Decode 226-229", "src/function.h:CodeRanges 64-69"]}
{"id": "C16", "title": "Predecessor counts bound the real predecessors", "statement": "The number of control-flow edges created by lifting into a block never exceeds the number counted while decoding, so a block initialised from its single counted predecessor never gets a second one.", "quantifier": "all programs, decode modes and configurations (call function, syscall implementation)", "why_tests_cant": "depends on global control flow", "anchors": ["src/lldecoder.cc:Function::Decode 196-220", "src/function.cc:ResolveAddr 71-91", "src/basicblock.cc:InitWithPHIs 58-70", "src/basicblock.cc:FillPhis 101-118"]}
{"id": "C17", "title": "Lifting a decoded function yields NULL exactly for unliftable entry instructions", "statement": "ll_func_lift returns NULL if nothing was decoded, if the architecture is unknown or if the very first instruction is unsupported; otherwise it returns a function. An unsupported instruction later in the code ends its block with the PC at that instruction and all earlier effects retained.", "quantifier": "all programs", "why_tests_cant": "all positions of unsupported instructions", "anchors": ["src/function.cc:Lift 93-243"]}
{"id": "C18", "title": "PHI construction terminates and is complete", "statement": "Lifting terminates, and in the resulting function every PHI node has exactly one incoming value per predecessor, with at most one PHI per block and register.", "quantifier": "all control-flow graphs, including irreducible ones and self loops", "why_tests_cant": "global fixpoint over arbitrary graphs with on-demand PHI creation", "anchors": ["src/basicblock.cc:FillPhis 101-118", "src/function.cc:Lift 215-232", "src/regfile.cc:GetRegFold 330-463"]}
{"id": "C19", "title": "Values flow correctly across blocks", "statement": "On every execution path through the lifted function, reading a register at the start of a block yields the value that register had at the end of the block executed before.", "quantifier": "all control-flow graphs and all paths of any length", "why_tests_cant": "unbounded paths", "anchors": ["src/basicblock.cc:InitWithPHIs/FillPhis 58-118", "src/regfile.cc:GetRegFold 330-463"]}
{"id": "C20", "title": "The CPU struct is up to date at every call and return", "statement": "At every return, tail call and call of an external function, every register's slot in the CPU struct holds the register's current value, on every path, although stores of unmodified registers are elided and stores may be hoisted into predecessors.", "quantifier": "all control-flow graphs, all placements of calls, all sets of modified registers, all paths", "why_tests_cant": "path-insensitive data-flow optimisation over arbitrary graphs", "anchors": ["src/callconv.cc:OptimizePacks 262-359", "src/callconv.cc:Call/Return/Unpack 195-260"]}
{"id": "C21", "title": "The pack optimisation's data flow terminates with the least fixpoint", "statement": "The dirty-register data-flow analysis terminates on every control-flow graph and computes exactly the registers that may have been modified on some path since the last synchronisation.", "quantifier": "all control-flow graphs", "why_tests_cant": "termination on arbitrary cyclic graphs", "anchors": ["src/callconv.cc:OptimizePacks 268-306"]}
{"id": "C22", "title": "Unmodified registers are never stored", "statement": "A CPU struct slot of a register that no instruction on any path to the exit has modified is not written by the lifted function.", "quantifier": "all programs and paths", "why_tests_cant": "negative claim over all paths", "anchors": ["src/callconv.cc:OptimizePacks 262-359"]}
{"id": "C23", "title": "CPU struct layout is consistent", "statement": "For each architecture: the PC is at offset 0, entries do not overlap, each entry is naturally aligned, the size of each entry matches the type used to access it, distinct registers use distinct tracking bits, and the advertised dereferenceable size and alignment are within the struct.", "quantifier": "all pairs of entries of all three architectures; any description accepted by the layout generator", "why_tests_cant": "pairwise property over generated tables and over all accepted descriptions", "anchors": ["data/rellume/cpustruct_parser.py", "data/rellume/cpustruct-x86_64.json", "data/rellume/cpustruct-rv64.json", "data/rellume/cpustruct-aarch64.json", "src/regfile.cc:RegisterSetBitIdx 47-60"]}
{"id": "C24", "title": "Register access types are consistent", "statement": "Every register access type has a positive size equal to the bit size of the LLVM type it denotes, mapping a type to an access type and back is the identity, and vector access types resolve to the lane count that fills the requested width.", "quantifier": "all access types and all widths", "why_tests_cant": "table-wide consistency", "anchors": ["src/facet.cc:FromType/Size/Type/Resolve", "src/facet.h:In/Vnt"]}
{"id": "C25", "title": "x86 condition codes match the architecture", "statement": "Jcc/SETcc/CMOVcc evaluate each of the 16 condition codes as the predicate over ZF,SF,PF,CF,OF defined in the SDM, opposite codes are complementary, and after CMP a,b the signed/unsigned conditions coincide with the comparison of a and b.", "quantifier": "all flag values; all operand widths and values", "why_tests_cant": "all operand pairs at four widths", "anchors": ["src/x86-64/lifter-flags.cc:FlagCond 87", "src/x86-64/lifter-gp.cc:LiftJcc/LiftCmovcc/LiftSetcc"]}
{"id": "C26", "title": "x86 ADD/SUB/CMP/INC/DEC/NEG/logic flags match the architecture", "statement": "After lifted ADD, SUB, CMP, INC, DEC, NEG, AND, OR, XOR, TEST each of ZF, SF, PF, CF, OF, AF has the architectural value (where defined), CF is preserved by INC/DEC, at all four operand widths.", "quantifier": "all operand values and widths, with and without overflow intrinsics", "why_tests_cant": "2^128 operand pairs", "anchors": ["src/x86-64/lifter-flags.cc:FlagCalcAdd/FlagCalcSub 50-86", "src/x86-64/lifter-gp.cc:LiftArith/LiftAndOrXor/LiftIncDec/LiftNeg"]}
{"id": "C27", "title": "x86 ADC and SBB", "statement": "ADC and SBB compute result and all flags as the architecture defines for every carry-in.", "quantifier": "all operands, widths and carry-in", "why_tests_cant": "the wrap-around of operand plus carry is a corner case per width", "anchors": ["src/x86-64/lifter-gp.cc:LiftArith 64"]}
{"id": "C28", "title": "x86 shifts and rotates", "statement": "SHL/SHR/SAR/ROL/ROR/SHLD/SHRD produce the architectural result for every count, and leave the flags unchanged when the masked count is zero.", "quantifier": "all counts 0..255, widths 8/16/32/64, operand values", "why_tests_cant": "count/width corner cases times all values", "anchors": ["src/x86-64/lifter-gp.cc:LiftShift/LiftShiftdouble/LiftRotate 211-305"]}
{"id": "C29", "title": "x86 multiply and divide", "statement": "MUL/IMUL (1,2,3 operand) give the architectural result and carry/overflow; DIV/IDIV give quotient and remainder in the architectural registers whenever the architecture does not fault, without undefined behaviour.", "quantifier": "all operands and widths", "why_tests_cant": "all operand values", "anchors": ["src/x86-64/lifter-gp.cc:LiftMul/LiftDiv 307-426"]}
{"id": "C30", "title": "x86 sub-register writes", "statement": "32-bit register writes clear the upper half, 8- and 16-bit writes preserve the remaining bits, and AH/BH/CH/DH reads and writes address bits 8..15.", "quantifier": "all registers, widths, values and write histories", "why_tests_cant": "histories of partial writes", "anchors": ["src/x86-64/lifter-operand.cc:StoreGpFacet/OpStoreGp 180-226", "src/x86-64/lifter-operand.cc:OpLoad 158"]}
{"id": "C31", "title": "x86 effective addresses", "statement": "The address used by a memory operand (and LEA's result) equals base + index*scale + displacement (+ segment base) modulo 2^64 or 2^32 according to address size, for RIP-relative, absolute and register forms.", "quantifier": "all operand forms, register values and displacements", "why_tests_cant": "address arithmetic over all values", "anchors": ["src/x86-64/lifter-operand.cc:OpAddr 59-143", "src/x86-64/lifter-gp.cc:LiftLea 428"]}
{"id": "C32", "title": "x86 stack and call/return instructions", "statement": "PUSH/POP/CALL/RET/LEAVE/PUSHF/POPF move RSP and memory as the architecture defines, including PUSH RSP and POP RSP.", "quantifier": "all states", "why_tests_cant": "self-referential operands and all states", "anchors": ["src/x86-64/lifter-operand.cc:StackPush/StackPop 228-245", "src/x86-64/lifter-gp.cc:LiftCall/LiftRet"]}
{"id": "C33", "title": "x86 flag word round trip", "statement": "Writing the flags word and reading it back preserves all modelled status flags, and reading produces the architectural bit positions with bit 1 set.", "quantifier": "all flag values and words", "why_tests_cant": "2^n combination with deferred parity representation", "anchors": ["src/x86-64/lifter-flags.cc:FlagAsReg/FlagFromReg 109-140"]}
{"id": "C34", "title": "x86 string instructions with REP", "statement": "REP-prefixed string instructions perform exactly RCX iterations (or stop at the first (mis)match for REPE/REPNE), leave RCX, RSI, RDI, memory and flags as the architecture defines, and do nothing for RCX=0.", "quantifier": "all counts (unbounded), directions, element sizes, memory contents", "why_tests_cant": "unbounded iteration counts", "anchors": ["src/x86-64/lifter-gp.cc:RepBegin/RepEnd/LiftLods/LiftStos/LiftMovs/LiftScas/LiftCmps 726-945"]}
{"id": "C35", "title": "x86 bit instructions", "statement": "BT/BTS/BTR/BTC, BSF/BSR, POPCNT, BSWAP, MOVBE compute the architectural results for register and memory operands, including negative memory bit offsets.", "quantifier": "all operand values, widths and bit offsets", "why_tests_cant": "all operand values", "anchors": ["src/x86-64/lifter-gp.cc:LiftBitscan/LiftPopcnt/LiftBittest/LiftMovbe/LiftBswap 499-598"]}
{"id": "C36", "title": "x86 exchange instructions", "statement": "XCHG, XADD and CMPXCHG perform the architectural exchange and flag updates for all operands including aliased registers.", "quantifier": "all operand combinations and values", "why_tests_cant": "aliasing combinations", "anchors": ["src/x86-64/lifter-gp.cc:LiftCmpxchg/LiftXchg 94-133"]}
{"id": "C37", "title": "SSE integer instructions", "statement": "Packed integer SSE instructions (shuffles, unpack, pack with saturation, saturating add/sub, average, multiply, sum of absolute differences, byte shifts, alignr, compare, min/max, sign, abs, movmsk, extend) compute the architectural lanes.", "quantifier": "all 128-bit operand values and all immediates", "why_tests_cant": "2^256 operand pairs times 256 immediates", "anchors": ["src/x86-64/lifter-sse.cc"]}
{"id": "C38", "title": "AArch64 data-processing instructions", "statement": "Integer data-processing (add/sub/logic with flags, shifted and extended operands, bitfield moves, conditional select/compare, multiply, divide, count, reverse) gives the architectural result and NZCV.", "quantifier": "all operands, shift kinds/amounts, bitfield positions and flags", "why_tests_cant": "all operand values and field positions", "anchors": ["src/a64/main.cc"]}
{"id": "C39", "title": "AArch64 branches", "statement": "B.cond/CBZ/TBZ/B/BL/BLR/BR/RET transfer control to the architectural target and set the link register.", "quantifier": "all registers (including BLR x30), conditions and values", "why_tests_cant": "register aliasing and all values", "anchors": ["src/a64/main.cc:Lift 223-411"]}
{"id": "C40", "title": "Architecture selection", "statement": "ll_config_set_architecture accepts exactly the documented names, sets architecture and calling convention consistently, and leaves the configuration unchanged when it returns false.", "quantifier": "all strings, all prior configurations", "why_tests_cant": "all strings", "anchors": ["src/rellume.cc:ll_config_set_architecture 109-130"]}
{"id": "C41", "title": "Lifted function simulates the guest code", "statement": "For every RV64, AArch64 or x86-64 program decoded with ll_func_decode_cfg, running the lifted function on a CPU struct whose PC is the entry point reaches, when it returns, exactly the CPU and memory state that executing the guest instructions one by one reaches after some number of steps, with the PC field at the next guest instruction.", "quantifier": "all programs (of any size), all initial states, all executions of any length", "why_tests_cant": "the composition of decode, lifting, PHI insertion and store elimination over arbitrary programs", "anchors": ["src/function.cc:Lift 93-243", "src/lldecoder.cc:Decode", "src/regfile.cc", "src/basicblock.cc", "src/callconv.cc", "src/rv64/lifter.cc", "src/a64/main.cc", "src/x86-64/lifter.cc"]}
{"id": "C42", "title": "Constant address translation", "statement": "With a global base set, constant guest addresses are translated to base value + (address - base address) modulo 2^64, so the host address equals the guest address when the base value equals the base address; address 0 stays NULL.", "quantifier": "all addresses and bases", "why_tests_cant": "wrap-around arithmetic", "anchors": ["src/lifter-base.cc:AddrConst 34-44"]}
{"id": "C43", "title": "Call-return check", "statement": "With a call function configured, after a lifted call control continues behind the call only if the callee left the PC equal to the return address; otherwise the lifted function returns with the callee's PC.", "quantifier": "all callee behaviours", "why_tests_cant": "quantifies over arbitrary callees", "anchors": ["src/lifter-base.h:SetIPCallret 110", "src/regfile.cc:GetPCBranch 617-633"]}
{"id": "C44", "title": "RV64 signed quotients", "statement": "DIV and DIVW leave the architectural quotient in rd for every dividend and divisor.", "quantifier": "all operand pairs", "why_tests_cant": "2^128 operand pairs; the failing ones are a set of measure ~2^-64", "anchors": ["src/rv64/lifter.cc:LiftDivRem 127-172"]}
{"id": "C45", "title": "RV64 JALR clears bit 0 of the target", "statement": "JALR continues at (rs1+imm) with bit 0 cleared for every rs1 and imm.", "quantifier": "all register values and immediates", "why_tests_cant": "compilers never produce odd targets, so tests do not contain them", "anchors": ["src/rv64/lifter.cc:Lifter::Lift FRV_JALR"]}
{"id": "C46", "title": "RV64 CLMULR", "statement": "CLMULR leaves bits 126..63 of the carry-less product in rd.", "quantifier": "all operand pairs", "why_tests_cant": "2^128 operand pairs", "anchors": ["src/rv64/lifter.cc:LiftCLMul"]}
{"id": "C47", "title": "RV64 NaN boxing", "statement": "Every instruction that writes a single-precision result sets the upper 32 bits of the f register to ones.", "quantifier": "all single-precision moves, loads and sign injections, all values", "why_tests_cant": "only observable through the upper half of an f register, which tests do not inspect", "anchors": ["src/rv64/lifter.cc:StoreFp", "src/rv64/lifter.cc:LiftLoad"]}
{"id": "C48", "title": "RV64 FCLASS", "statement": "FCLASS.S/D set exactly the one bit of rd that the ISA assigns to the class of the operand.", "quantifier": "all 2^32/2^64 operand patterns", "why_tests_cant": "operand space", "anchors": ["src/rv64/lifter.cc:LiftFclass"]}
{"id": "C49", "title": "One RV64 instruction, uniformly", "statement": "For every instruction with an ISA specification outside the listed exceptions, one lifted instruction simulates one ISA step on the whole state (registers, f registers, memory, PC).", "quantifier": "all specified instructions, states, configurations", "why_tests_cant": "combination over all instructions and states", "anchors": ["src/rv64/lifter.cc:Lifter::Lift"]}
{"id": "C50", "title": "High-byte register reads always succeed", "statement": "Reading AH, BH, CH or DH yields bits 8..15 of the register in every program, in particular also if the register was used as the base of a memory operand before in the same block.", "quantifier": "all register operation histories", "why_tests_cant": "depends on the representation left behind by earlier instructions", "anchors": ["src/regfile.cc:GetReg 529-534", "src/x86-64/lifter-operand.cc:OpAddr 108", "src/x86-64/lifter-operand.cc:OpLoad 164-166"]}
{"id": "C51", "title": "One x86-64 instruction and sequences, uniformly", "statement": "For every modelled general-purpose instruction outside the listed exceptions, one lifted instruction simulates one architectural step on registers, memory, PC and every flag the architecture defines and the exception list does not name; lifted straight-line sequences simulate the sequence of steps.", "quantifier": "all mnemonics, operand forms, states, configurations, sequence lengths", "why_tests_cant": "combination over all instructions, states and sequences", "anchors": ["src/x86-64/lifter.cc:Lifter::Lift", "src/x86-64/lifter-gp.cc", "src/x86-64/lifter-operand.cc", "src/x86-64/lifter-flags.cc"]}
{"id": "C52", "title": "x86 TZCNT and LZCNT", "statement": "TZCNT and LZCNT give the number of trailing/leading zeros (the operand size for source zero), with ZF and CF set as the architecture defines.", "quantifier": "all widths and operand values", "why_tests_cant": "result for zero and flags differ from BSF/BSR only on part of the inputs", "anchors": ["src/x86-64/lifter.cc", "src/x86-64/lifter-gp.cc:LiftBitscan"]}
{"id": "C53", "title": "AArch64 loads, stores and addressing", "statement": "Integer and FP/SIMD-register loads and stores (single, pair, exclusive) access the architectural address for every addressing mode, extend or truncate the value, zero the unused upper part of the destination, and write the base register back for pre- and post-indexing, including loads into the base register's neighbours and store of the zero register.", "quantifier": "all addressing modes, access sizes, registers, states; addresses modulo 2^64", "why_tests_cant": "all base/offset/aliasing combinations and wrap-around", "anchors": ["src/a64/main.cc:LiftLoadStore 1340-1410", "src/a64/main.cc:Addr 1128-1219", "src/a64/main.cc:Load/Store"]}
{"id": "C54", "title": "One AArch64 instruction and sequences, uniformly", "statement": "For every modelled AArch64 instruction outside the listed exceptions, one lifted instruction simulates one architectural step on X0-X30, SP, NZCV, V0-V31, TPIDR_EL0, memory and PC; lifted straight-line sequences simulate the sequence of steps.", "quantifier": "all instructions, states, configurations, sequence lengths", "why_tests_cant": "combination over all instructions, states and sequences", "anchors": ["src/a64/main.cc:Lift 51-910"]}
{"id": "C55", "title": "AArch64 system registers and moves between register files", "statement": "MSR/MRS of NZCV and TPIDR_EL0, CFINV, DC ZVA, barriers, hints, FCSEL and FMOV have their architectural effect and change nothing else.", "quantifier": "all register numbers, register and memory contents, scalar sizes", "why_tests_cant": "all register values; flag packing; block alignment", "anchors": ["src/a64/main.cc:Lift 250-330", "src/a64/main.cc:Lift A64_FCSEL 870-903"]}
{"id": "C56", "title": "SSE data movement", "statement": "SSE moves between registers and memory, shuffles and unpacks of floating-point lanes, INSERTPS/EXTRACTPS, duplications and bitwise logic leave exactly the architectural value in the destination, zero or keep the remaining bits of an XMM register as the SDM says, and change nothing else.", "quantifier": "all instructions, register numbers, addressing forms, register and memory contents, immediates, alignments", "why_tests_cant": "2^128 register contents, all addresses and immediates; merging versus zeroing of upper lanes", "anchors": ["src/x86-64/lifter-sse.cc:LiftSseMovq..LiftSseMovhpd 103-192", "src/x86-64/lifter-sse.cc:LiftSseInsertps 386-447"]}
{"id": "C57", "title": "SSE floating-point instructions", "statement": "Scalar, packed and horizontal arithmetic, MIN/MAX, comparison, [U]COMIS flags, square root and conversions apply the IEEE operation to the right lanes in the right order and keep the other lanes; MIN/MAX return the second operand for unordered or equal inputs; truncating conversions that do not fit give the integer indefinite value.", "quantifier": "all instructions, operand bit patterns, predicates, any IEEE arithmetic", "why_tests_cant": "2^128 operands; NaN and out-of-range cases; operand order", "anchors": ["src/x86-64/lifter-sse.cc:LiftSseBinOp 209-322", "src/x86-64/lifter-operand.cc 145-226"]}
{"id": "C58", "title": "Alignment of SSE memory operands", "statement": "Lifted SSE code is defined for every memory operand address at which the processor executes the instruction.", "quantifier": "all SSE instructions with a memory operand, all addresses", "why_tests_cant": "undefined behaviour of over-aligned accesses does not show in tests unless the optimiser exploits it", "anchors": ["src/x86-64/lifter-operand.cc:ll_operand_set_alignment 145-155", "src/x86-64/lifter-sse.cc"]}
{"id": "C59", "title": "One SSE instruction and sequences, uniformly", "statement": "For every SSE instruction with a case in the lifter one lifted instruction simulates one architectural step on the general-purpose, XMM and flag registers, memory and PC; lifted straight-line sequences simulate the sequence of steps.", "quantifier": "all instructions, states, configurations, sequence lengths", "why_tests_cant": "combination over all instructions, states and sequences", "anchors": ["src/x86-64/lifter.cc 211-431"]}
{"id": "C60", "title": "Saving and restoring SSE state", "statement": "FXSAVE followed by FXRSTOR of the same area restores all XMM registers whatever happens in between outside the area; FXSAVE changes only the 416 bytes of its area; FXSAVE, FSTCW and STMXCSR agree on the control words.", "quantifier": "all register contents, addresses and intervening code", "why_tests_cant": "all memory contents; agreement of different instructions", "anchors": ["src/x86-64/lifter-sse.cc:LiftFxsave 61-101"]}
{"id": "C61", "title": "The emitted function as a whole", "statement": "The function handed back to the user, with its PHI nodes and its loads and stores of the CPU struct, run on a CPU struct and memory that hold a guest state, has no undefined behaviour, and when it returns the CPU struct, the memory and the stored PC are those of a guest state the original code reaches; it does return, unless the guest code runs forever.", "quantifier": "all RV64, AArch64 and x86-64 programs, guest states, external functions and executions of the emitted code of any length", "why_tests_cant": "unbounded programs, loops and executions; SSA construction, CPU struct synchronisation and instruction lifting must agree for every control flow graph", "anchors": ["src/function.cc:Function::Lift 134-231", "src/regfile.cc", "src/basicblock.cc", "src/callconv.cc:CallConv::OptimizePacks", "src/rv64/lifter.cc", "src/a64/main.cc"]}
{"id": "C62", "title": "RV64 floating-point arithmetic, conversions and fcsr", "statement": "Each lifted RV64 F/D arithmetic, min/max, square root, fused multiply-add, comparison and conversion instruction leaves in the destination register the value the ISA prescribes for its operands and rounding mode: single-precision operands and results NaN-boxed, multiply-add rounded once, conversions to integers rounded in the given mode and saturated; accesses to fflags, frm and fcsr read and write these registers.", "quantifier": "all instructions, register contents, rounding modes and states", "why_tests_cant": "2^64 operand patterns per register, all rounding modes; undefined (poison) results look right in tests", "anchors": ["src/rv64/lifter.cc:LiftFpArith 189-194", "src/rv64/lifter.cc:LiftFcvtIToF 195-202", "src/rv64/lifter.cc:LiftFcvtFToI 203-220", "src/rv64/lifter.cc:LiftFcmp 227-230", "src/rv64/lifter.cc:LiftFminmax 244-247", "src/rv64/lifter.cc:LiftFmadd 282-289"]}
{"id": "C63", "title": "AArch64 SIMD integer instructions", "statement": "Each lifted AArch64 Advanced SIMD integer, logical, shift, compare, reduction, multiply-accumulate, widening/narrowing, permutation, table look-up and element move instruction leaves in its destination register, lane by lane, the value the architecture prescribes for the contents of its source registers, clears the upper half for 64-bit arrangements, and changes nothing else but the PC.", "quantifier": "all instructions, arrangements, scalar forms, register numbers (including destination = source), immediates and register contents", "why_tests_cant": "128-bit operands, eight arrangements and aliasing registers per instruction; poison results look right in tests", "anchors": ["src/a64/simd.cc:Lifter::LiftSIMD 605-1328", "src/a64/simd.cc:Halve 1511-1526", "src/a64/simd.cc:InsertInHalf 1392-1421"]}
{"id": "C64", "title": "AArch64 structure loads and stores", "statement": "Each lifted LD1-LD4, ST1-ST4, LD1R-LD4R and single-structure form transfers exactly the elements the architecture prescribes between memory and the (consecutive, wrapping modulo 32) registers, keeps the other elements in single-structure loads, and advances the base register by the transfer size or the index register in post-index forms.", "quantifier": "all instructions, arrangements, register lists, element indices, base and index registers, memories and states", "why_tests_cant": "interleaving for every number of registers and arrangement, wrap-around of register numbers and addresses, all memories", "anchors": ["src/a64/simd.cc:Lifter::LiftSIMD 101-395", "src/a64/simd.cc:SIMDLoadStoreAddr 1707-1726"]}
{"id": "C65", "title": "AArch64 floating point", "statement": "Each lifted AArch64 scalar or vector floating-point instruction leaves in its destination (or in NZCV) the value the architecture prescribes: NaNs propagate in FMAX/FMIN, FMADD/FMLA round once, conversions to integers round in the given mode and saturate, comparisons use the operand precision.", "quantifier": "all instructions, precisions, arrangements, rounding modes and register contents", "why_tests_cant": "2^64 patterns per operand; NaN, signed zero and out-of-range cases are rare; poison results look right in tests", "anchors": ["src/a64/main.cc:733-862", "src/a64/main.cc:LiftFMA 1417-1424", "src/a64/main.cc:FlagCalcFP 1401-1410", "src/a64/simd.cc:396-604", "src/a64/simd.cc:LiftScalarCmXX 1571-1583", "src/a64/simd.cc:LiftMulAccElem 1625-1659"]}
{"id": "C66", "title": "A lifted function is left only where it must be", "statement": "Running the emitted function hands control back to its caller only in one of these situations, with the CPU struct holding the guest state at that point: the last guest instruction was a return, an indirect jump or (without a call function) a call; a call made through the call function came back to another address; a system call was made; the next guest instruction is a direct successor that was not decoded or lies at address 0; or the instruction at the program counter is one the lifter does not support. A direct branch, a conditional branch or straight-line code whose target was decoded never leaves the function.", "quantifier": "all programs, decode requests, configurations, start states and numbers of steps, for the three architectures", "why_tests_cant": "leaving early and leaving late both give correct guest states when the caller re-enters, so only performance or a missing callback shows the error; unboundedly many control-flow graphs", "anchors": ["src/function.cc:ResolveAddr", "src/function.cc:Function::Lift 98-217", "src/basicblock.cc:BranchTo", "src/callconv.cc:CallConv::Return 219-230", "src/lldecoder.cc:classifyInstr", "src/lifter-base.h:ForceReturn"]}
{"id": "C67", "title": "The tail function runs exactly when the function is left other than by a return", "statement": "With a tail function set (ll_config_set_tail_func), a call of the lifted function whose guest code ends with a return instruction (call-return mode) comes back with the guest state itself; whenever the guest is left in any other way - an indirect jump, a call without call function, a callee that came back elsewhere, a system call, an undecoded successor, an unsupported instruction - the tail function is applied exactly once, last, to a CPU struct that holds the guest state at that point, and the caller sees what it leaves. Without a tail function the caller always sees the guest state.", "quantifier": "all programs, decode requests, configurations with and without tail and call functions, tail functions, start states and executions of the emitted function, for the three architectures", "why_tests_cant": "depends on which of several return paths of the emitted function an execution takes, for unboundedly many control-flow graphs; a tail call in place of a return, or the reverse, often still yields plausible states", "anchors": ["include/rellume/rellume.h:ll_config_set_tail_func", "src/config.h:tail_function, call_function", "src/function.cc:Function::Lift 198-217", "src/callconv.cc:CallConv::Call 232-260", "src/lifter-base.h:ForceReturn", "src/a64/main.cc:A64_RET", "src/x86-64/lifter-gp.cc:LiftRet", "src/rv64/lifter.cc:Lifter::Lift FRV_JAL 390-409"]}
{"id": "C68", "title": "The emitted function is in SSA form", "statement": "The function that ll_func_lift returns meets what LLVM requires of the order of definitions and uses, which llvm::verifyFunction only checks when verification is switched on: every value is defined by one instruction and has one type; an operand of an instruction is computed from values that are defined before it in the same block, or in a block that every path from the entry to the instruction goes through; the same holds of the conditions of branches, of the addresses given to called functions and of the values returned; values stored into the CPU struct are available where they are stored; the incoming values of a PHI node are available at the end of the predecessor they come from; operands have the types that their instructions need (pointers for addresses, i1 for conditions, equal integer types for atomics).", "quantifier": "all lists of lifted blocks, whatever control flow graph connects them, all statements of the builder that the model of the emitted code (C61) covers, all choices of what is cached and folded", "why_tests_cant": "with verification off, invalid SSA is not reported but miscompiled by later passes; whether a cached value reaches a use across blocks and calls depends on unboundedly many control-flow graphs", "anchors": ["src/function.cc:Function::Lift 98-237", "src/regfile.cc:RegFile::impl::InitWithRegFile", "src/regfile.cc:RegFile::impl::InitWithPHIs", "src/regfile.cc:RegFile::impl::GetReg", "src/basicblock.cc:BranchTo", "src/callconv.cc:CallConv::Call 232-260", "src/callconv.cc:CallConv::UnpackParams", "include/rellume/rellume.h:ll_config_enable_verify_ir"]}
{"id": "C69", "title": "x86-64 CPUID, RDTSC, fences and prefetches", "statement": "Lifted CPUID passes the low halves of RAX and RCX to the function set with ll_config_set_cpuinfo_func and leaves its answer for that leaf in EAX, EBX, ECX and EDX with the upper halves cleared; without such a function all four are zero. Lifted RDTSC leaves the lower half of the counter in RAX and the upper half in RDX. LFENCE, SFENCE, MFENCE and all prefetches change nothing but the program counter, whatever the address, and have no undefined behaviour. In all cases flags, memory and all other registers are kept.", "quantifier": "all guest states, all functions for CPU information, all counter values, all operands and addresses of prefetches, all configurations (PIC or not, native segment bases or not)", "why_tests_cant": "the answer depends on a user-supplied function and on a counter; prefetches of any address, including unmapped ones, must be harmless", "anchors": ["src/x86-64/lifter-gp.cc:LiftCpuid", "src/x86-64/lifter-gp.cc:LiftRdtsc", "src/x86-64/lifter-sse.cc:LiftFence", "src/x86-64/lifter-sse.cc:LiftPrefetch", "src/x86-64/lifter-operand.cc:OpAddr", "src/config.h:cpuinfo_function", "include/rellume/rellume.h:ll_config_set_cpuinfo_func", "include/rellume/rellume.h:ll_config_set_use_native_segment_base"]}
{"id": "C70", "title": "Configuration calls", "statement": "After any sequence of ll_config_* calls every option has the value given by the last call that names it, or its default; a call changes no option it does not name; architecture and calling convention agree; a function option can be unset with a null pointer.", "quantifier": "all sequences of configuration calls with all arguments, all sets of compiled-in architectures", "why_tests_cant": "sequences and arguments are unbounded; an option overwritten by an unrelated call shows only in the combination", "anchors": ["src/rellume.cc:48-130", "src/config.h:LLConfig 41-109", "src/arch.h:Arch::DEFAULT 44-50"]}
{"id": "C71", "title": "Overridden instructions", "statement": "An instruction overridden with ll_config_set_instr_impl becomes one call of the given function, which sees the guest's registers and memory before the instruction and the PC of the next one; afterwards the guest has the registers and memory the function leaves and goes on at the PC it leaves.", "quantifier": "all overridden instructions of the three architectures, all functions, all guest states, with and without PC base", "why_tests_cant": "the functions are arbitrary; where execution goes on depends on the block structure around the instruction", "anchors": ["src/x86-64/lifter.cc:47-66", "src/rv64/lifter.cc:363-382", "src/a64/main.cc:51-68", "src/lifter-base.cc:CallExternalFunction"]}
{"id": "C72", "title": "Functions given by the user are called with their type", "statement": "Every call of a function given with ll_config_set_syscall_impl, ll_config_set_instr_impl or ll_config_set_tail_func passes the CPU struct pointer as its only argument with the parameter's type, and the guest's registers are taken from the CPU struct afterwards; a function of any other type or calling convention is rejected.", "quantifier": "all functions (parameter lists, address spaces, result, calling convention), all architectures, all address spaces given with ll_config_set_sptr_addrspace", "why_tests_cant": "tests give functions of one type in address space 0; the checks depend on all parts of the type", "anchors": ["src/callconv.cc:FromFunction,Call,Unpack", "src/lifter-base.cc:CallExternalFunction", "src/function.cc:211-217"]}
{"id": "C73", "title": "Memory read while decoding", "statement": "Decoding asks the memory callback only for addresses that the code reaches by direct branches and fall-through from the given address, and for no address with a valid instruction twice, also over several calls. Without a callback (NULL) decoding is defined whenever the instructions it decodes are readable.", "quantifier": "all memory contents, instruction sets, control flow, entry points, sequences of decode calls, all layouts of readable memory", "why_tests_cant": "control flow graphs and memory layouts are unbounded; code next to the end of a mapping is rare in tests", "anchors": ["src/lldecoder.cc:Decode", "src/rellume.cc:ll_func_decode"]}
{"id": "C74", "title": "Lifting repeatedly and between decode calls", "statement": "ll_func_lift may be called any number of times on one function object and mixed with further ll_func_decode_* calls: lifting changes nothing that decode calls or ll_func_ranges show, and every function returned simulates the guest code decoded so far.", "quantifier": "all sequences of decode and lift calls, all programs of the three architectures, all guest states and executions", "why_tests_cant": "every test lifts once; the sequences and the executions are unbounded", "anchors": ["src/function.cc:Lift (97-101),ResolveAddr", "src/lldecoder.cc:Decode", "src/rellume.cc:ll_func_lift,ll_func_ranges"]}
{"id": "C75", "title": "Call function changed between decoding and lifting", "statement": "The function given with ll_config_set_call_func may be set or removed between decoding and lifting: every block gets at most as many predecessors as were counted while decoding, so lifting succeeds.", "quantifier": "all programs of the three architectures, decoded by any calls of ll_func_decode_cfg, both directions of the change", "why_tests_cant": "the number of edges into a block depends on the whole control flow graph; tests configure everything first", "anchors": ["src/lldecoder.cc:Decode", "src/function.cc:Lift", "src/rv64/lifter.cc:Lifter::Lift FRV_JAL 390-409", "src/a64/main.cc:Lift", "src/x86-64/lifter.cc:Lift", "src/basicblock.cc:BranchTo"]}
