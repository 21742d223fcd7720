-Q theories Verif
theories/Bits.v
theories/IR.v
theories/Facet.v
theories/Dsl.v
theories/Rv64.v
theories/Rv64Spec.v
theories/Rv64Sim.v
theories/Rv64Arith.v
theories/Rv64Int.v
theories/Rv64Bit.v
theories/Rv64Mem.v
theories/Rv64Fp.v
theories/Rv64Step.v
theories/Rv64Bad.v
theories/Rv64FpSpec.v
theories/Rv64FpArith.v
theories/Rv64FpEx.v
theories/Rv64Ex.v
theories/Prop_Rv64.v
theories/Prop_Rv64Fp.v
theories/RegFile.v
theories/RegFileOk.v
theories/RegScript.v
theories/Prop_RegFile.v
theories/Decode.v
theories/DecodeOk.v
theories/DecodeRv.v
theories/Prop_Decode.v
theories/Layout.v
theories/Prop_Config.v
theories/X86.v
theories/X86Spec.v
theories/X86Arith.v
theories/X86Sim.v
theories/X86Ops.v
theories/X86Gp.v
theories/X86Gp2.v
theories/X86Gp3.v
theories/X86Gp4.v
theories/X86Gp5.v
theories/X86Gp6.v
theories/X86Gp7.v
theories/X86Step.v
theories/X86Cond.v
theories/X86Ex.v
theories/Prop_X86.v
theories/Prop_X86b.v
theories/Prop_X86c.v
theories/X86StrSpec.v
theories/X86Run.v
theories/X86Str.v
theories/Prop_X86str.v
theories/Cfg.v
theories/CfgHeap.v
theories/CfgLog.v
theories/CfgBuild.v
theories/FlowOk.v
theories/CfgFinish.v
theories/CfgSem.v
theories/CfgSemOk.v
theories/Prop_Cfg.v
theories/LiftFn.v
theories/LiftSim.v
theories/LiftEdge.v
theories/LiftRv.v
theories/Prop_Lift.v
theories/A64Base.v
theories/A64Simd.v
theories/A64SimdMem.v
theories/A64SimdFp.v
theories/A64.v
theories/A64Spec.v
theories/A64Arith.v
theories/A64Sim.v
theories/A64Dp.v
theories/A64Br.v
theories/A64Mem.v
theories/A64Sys.v
theories/A64SimdSpec.v
theories/A64SimdMemSpec.v
theories/A64SimdVec.v
theories/A64SimdEval.v
theories/A64SimdInt.v
theories/A64SimdMemOk.v
theories/A64SimdFpSpec.v
theories/A64SimdFpOk.v
theories/A64SimdFpEq.v
theories/A64SimdStep.v
theories/A64Step.v
theories/A64SimdEx.v
theories/Prop_A64Simd.v
theories/Prop_A64.v
theories/X86Sse.v
theories/X86SseSpec.v
theories/X86SseVec.v
theories/X86SseSim.v
theories/X86SseOps.v
theories/X86SseOps2.v
theories/X86SseOps3.v
theories/X86SseOps4.v
theories/X86SseStep.v
theories/X86SseStep2.v
theories/X86SseStep3.v
theories/X86SseMain.v
theories/X86SseTop.v
theories/X86SseFx.v
theories/X86Shape.v
theories/Prop_Sse.v
theories/LiftA64.v
theories/Prop_LiftA64.v
theories/LiftX86.v
theories/Prop_LiftX86.v
theories/IrMono.v
theories/Lower.v
theories/LowerOk.v
theories/SsaHeap.v
theories/Ssa.v
theories/SsaFin.v
theories/LowerSem.v
theories/IrWf.v
theories/LowerEx.v
theories/IrExec.v
theories/Prop_Ir.v
theories/LowerX86.v
theories/Prop_IrX86.v
theories/Prop_IrSys.v
theories/LiftExit.v
theories/Prop_Exit.v
theories/Prop_ExitA64.v
theories/Prop_ExitX86.v
theories/Prop_Tail.v
theories/Prop_TailX86.v
theories/SsaPc.v
theories/Prop_Ssa.v
theories/X86Misc.v
theories/Prop_X86Misc.v
theories/Api.v
theories/Override.v
theories/ExtCall.v
theories/DecodeReq.v
theories/Prop_DecodeReq.v
theories/Relift.v
theories/Prop_Relift.v
theories/Prop_Reconf.v
theories/Prop_Api.v
