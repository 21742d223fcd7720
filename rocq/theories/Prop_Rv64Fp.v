(** C62. RV64 floating-point arithmetic, conversions and fcsr. *)

From Coq Require Import ZArith Lia ZifyBool List Bool.
From Verif Require Import Bits IR Facet Dsl Rv64 Rv64Spec Rv64Sim Rv64Arith Rv64Int Rv64Bad Rv64Ex Rv64FpSpec Rv64FpArith Rv64FpEx.
From Verif Require A64SimdFpSpec A64SimdEx.
Import A64SimdFpSpec(frel, r_eq, r_lt).
Import ListNotations.
Open Scope Z_scope.
Ltac Zify.zify_post_hook ::= Z.div_mod_to_equations.

(** Double-precision arithmetic (dynamic rounding mode), minimum, maximum, square
    root, comparisons of either format, integer-to-double and float-to-double
    conversions, and conversions to integers of values in range with a static rounding
    mode other than nearest-even, reach the ISA's state; fused multiply-add does where
    rounding twice gives the same. Missing: the cases refuted below. *)
Theorem rv64_fp_correct_partial : forall `{FpuOps} c cfg kc i s g g', rv_ctx c kc i s g ->
  isa_fpa i g = Some g' -> fpa_pre i g -> lifts_to c cfg kc i s g' (PcConst (r_end i)).
Proof. intros F c cfg kc i s g g' [HA GB R KC PC] E P. eapply fpa_correct; eassumption. Qed.
Print Assumptions rv64_fp_correct_partial.

(** What the comparisons write, if LLVM's ordered predicates compare as IEEE 754 says:
    1 if the relation holds, 0 if it does not, 0 if an operand is a NaN. *)
Definition fcmp_rel (mn : rvmnem) : option (fsz * (option comparison -> bool)) :=
  match mn with
  | R_FEQS => Some (FS, r_eq) | R_FLTS => Some (FS, r_lt) | R_FLES => Some (FS, fun r => r_lt r || r_eq r)
  | R_FEQD => Some (FD, r_eq) | R_FLTD => Some (FD, r_lt) | R_FLED => Some (FD, fun r => r_lt r || r_eq r)
  | _ => None
  end.
Theorem rv64_fp_compare_correct : forall `{FpuOps} c cfg kc i s g z p, rv_ctx c kc i s g -> A64SimdFpSpec.fpu_ieee ->
  fcmp_rel (r_mn i) = Some (z, p) -> fpa_pre i g ->
  lifts_to c cfg kc i s (wpc (wx g (r_rd i) (b2z (p (frel z (rf g z (r_rs1 i)) (rf g z (r_rs2 i)))))) (g_pc g + r_len i)) (PcConst (r_end i)).
Proof.
  intros F c cfg kc i s g z p CX IE FC P. apply (rv64_fp_correct_partial c cfg kc i s g _ CX); [|exact P].
  assert (RI : forall z n, inr (fwid z) (rf g z n)).
  { intros z0 n. pose proof (rel_fr _ _ (x_rel _ _ _ _ _ CX) n) as X. destruct z0; cbn [rf fwid]; [|exact X]. unfold unbox. destruct (_ =? _); [apply trunc_range; lia|split; vm_compute; congruence]. }
  destruct (A64SimdFpSpec.fi_cmp IE z _ _ (RI z (r_rs1 i)) (RI z (r_rs2 i))) as (Q1 & _ & _ & Q4 & Q5 & _).
  assert (UB1 : forall b, U 1 (b2z b) = b2z b) by (intros []; reflexivity).
  unfold isa_fpa. cbv zeta.
  destruct (r_mn i) eqn:MN; try discriminate FC; injection FC as <- <-; cbn [fp_arith fp_minmax fp_sqrt fp_fma fp_cmp]; rewrite ?Q1, ?Q4, ?Q5, UB1; reflexivity.
Qed.
Print Assumptions rv64_fp_compare_correct.

(** Single-precision results: right in the low 32 bits... *)
Lemma emit_dest : forall `{FpuOps} i g z, fp_dest (r_mn i) = Some z -> (fp_arith (r_mn i) <> None -> r_misc i = 7) ->
  exists o, fp_emit i g = Some (z, o).
Proof.
  intros F i g z D M. unfold fp_emit. cbv zeta. unfold fp_dest in D.
  destruct (fp_arith (r_mn i)) as [[? ?]|]. { injection D as <-. rewrite M by discriminate. eexists. reflexivity. }
  destruct (fp_minmax (r_mn i)) as [[? ?]|]. { injection D as <-. eexists. reflexivity. }
  destruct (fp_sqrt (r_mn i)) as [?|]. { injection D as <-. eexists. reflexivity. }
  destruct (fp_fma (r_mn i)) as [[[? ?] ?]|]. { injection D as <-. eexists. reflexivity. }
  destruct (fp_fromint (r_mn i)) as [[[? ?] ?]|]. { injection D as <-. eexists. reflexivity. }
  destruct (r_mn i); try discriminate D; injection D as <-; eexists; reflexivity.
Qed.
Theorem rv64_fp_single_low_partial : forall `{FpuOps} c cfg kc i s g g', rv_ctx c kc i s g ->
  isa_fpa i g = Some g' -> fp_dest (r_mn i) = Some FS -> (fp_arith (r_mn i) <> None -> r_misc i = 7) ->
  fp_fma (r_mn i) = None -> boxed FS (g_f g (r_rs1 i)) -> boxed FS (g_f g (r_rs2 i)) ->
  exists v, g' = wpc (wf g (r_rd i) (nanbox v)) (g_pc g + r_len i) /\
    lifts_to c cfg kc i s (wpc (wf g (r_rd i) (U 32 v)) (g_pc g + r_len i)) (PcConst (r_end i)).
Proof.
  intros F c cfg kc i s g g' [HA GB R KC PC] E D M NF B1 B2.
  pose proof (fp_emit_writes c HA cfg kc i s g R PC FS) as FW. unfold fp_emit in FW. cbv zeta in FW.
  rewrite !(lo_rf s g R FS _ B1), !(lo_rf s g R FS _ B2) in FW || idtac.
  assert (L1 : lo g FS (r_rs1 i) = rf g FS (r_rs1 i)) by (apply (lo_rf s g R), B1).
  assert (L2 : lo g FS (r_rs2 i) = rf g FS (r_rs2 i)) by (apply (lo_rf s g R), B2).
  assert (L3 : lo g FD (r_rs1 i) = rf g FD (r_rs1 i)) by (apply (lo_rf s g R); exact I).
  unfold isa_fpa in E. cbv zeta in E. unfold fp_dest in D. rewrite NF in *.
  destruct (fp_arith (r_mn i)) as [[op z]|].
  { injection D as ->. destruct (is_rne _); [|discriminate]. destruct (fpu_op _ _ _ _) as [v|] eqn:Q; [|discriminate].
    exists v. split; [apply (some_inj _ _ E)|]. apply FW. rewrite M by discriminate. rewrite L1, L2, Q. reflexivity. }
  destruct (fp_minmax (r_mn i)) as [[op z]|].
  { injection D as ->. destruct (fpu_op _ _ _ _) as [v|] eqn:Q; [|discriminate].
    exists v. split; [apply (some_inj _ _ E)|]. apply FW. rewrite L1, L2, Q. reflexivity. }
  destruct (fp_sqrt (r_mn i)) as [z|].
  { injection D as ->. destruct (is_rne _); [|discriminate]. destruct (fpu_op _ _ _ _) as [v|] eqn:Q; [|discriminate].
    exists v. split; [apply (some_inj _ _ E)|]. apply FW. rewrite L1, Q. reflexivity. }
  destruct (fp_fromint (r_mn i)) as [[[w sg] z]|] eqn:K.
  { injection D as ->. replace (fp_cmp (r_mn i)) with (@None (fpname * fsz)) in E by (destruct (r_mn i); try discriminate K; reflexivity).
    destruct (is_rne _); [|discriminate]. destruct (fpu_op _ _ _ _) as [v|] eqn:Q; [|discriminate].
    exists v. split; [apply (some_inj _ _ E)|]. apply FW. reflexivity. }
  destruct (r_mn i); try discriminate D. cbn [fp_cmp fp_toint] in E.
  destruct (is_rne _); [|discriminate]. destruct (fpu_op _ _ _ _) as [v|] eqn:Q; [|discriminate].
  exists v. split; [apply (some_inj _ _ E)|]. apply FW. rewrite L3, Q. reflexivity.
Qed.
Print Assumptions rv64_fp_single_low_partial.
(** ...but never NaN-boxed (finding F05 extends to every such instruction). *)
Theorem rv64_fp_single_refuted : forall `{FpuOps} c cfg kc i s g g', rv_ctx c kc i s g ->
  isa_fpa i g = Some g' -> fp_dest (r_mn i) = Some FS -> (fp_arith (r_mn i) <> None -> r_misc i = 7) ->
  misses c cfg kc i s g'.
Proof.
  intros F c cfg kc i s g g' [HA GB R KC PC] E D M. destruct (emit_dest i g FS D M) as [o O].
  eapply single_misses; eassumption.
Qed.
Print Assumptions rv64_fp_single_refuted.
(** Finding F44: fused multiply-add rounds twice: whenever that gives another value
    the state reached is not the ISA's. *)
Theorem rv64_fma_refuted : forall `{FpuOps} c cfg kc i s g g' np na v, rv_ctx c kc i s g ->
  fp_fma (r_mn i) = Some (np, na, FD) -> isa_fpa i g = Some g' ->
  fpu_op FFma TF64 TF64 [fneg_if np FD (g_f g (r_rs1 i)); g_f g (r_rs2 i); fneg_if na FD (g_f g (r_rs3 i))] = Some v ->
  match unfused np na FD (g_f g (r_rs1 i)) (g_f g (r_rs2 i)) (g_f g (r_rs3 i)) with Some u => U 64 u <> U 64 v | None => True end ->
  misses c cfg kc i s g'.
Proof. intros F c cfg kc i s g g' np na v [HA GB R KC PC]. intros. eapply fma_misses; eassumption. Qed.
Print Assumptions rv64_fma_refuted.
(** Finding F45: with the dynamic rounding mode, conversions to integers truncate
    instead of rounding to nearest even. *)
Theorem rv64_fcvt_dyn_refuted : forall `{FpuOps} c cfg kc i s g g' w sg z v, rv_ctx c kc i s g -> fpu_conv ->
  fp_toint (r_mn i) = Some (w, sg, z) -> isa_fpa i g = Some g' -> r_misc i = 7 -> r_rd i <> 0 ->
  boxed z (g_f g (r_rs1 i)) -> fval z (rf g z (r_rs1 i)) = Some v ->
  imin w sg <= rint RNE v <= imax w sg -> rint RTZ v <> rint RNE v -> misses c cfg kc i s g'.
Proof. intros F c cfg kc i s g g' w sg z v [HA GB R KC PC]. intros. eapply dyn_misses; eassumption. Qed.
Print Assumptions rv64_fcvt_dyn_refuted.
(** Finding F46: out of range, NaN and infinite operands give an undefined (poison)
    register instead of the saturated value, for every supported rounding mode. *)
Theorem rv64_fcvt_range_refuted : forall `{FpuOps} c cfg kc i s g g' w sg z r, rv_ctx c kc i s g -> fpu_conv ->
  fp_toint (r_mn i) = Some (w, sg, z) -> em_of (r_misc i) = Some r -> r_rd i <> 0 -> boxed z (g_f g (r_rs1 i)) ->
  match fval z (rf g z (r_rs1 i)) with Some v => ~ imin w sg <= rint r v <= imax w sg | None => True end ->
  misses c cfg kc i s g'.
Proof.
  intros F c cfg kc i s g g' w sg z r [HA GB R KC PC] CV K M D B O. eapply toint_poison; try eassumption.
  unfold toint_emit. rewrite (lo_rf s g R z _ B). destruct (fval z _) as [v|]; [|reflexivity].
  unfold fits. destruct (_ && _) eqn:Q; [|reflexivity]. apply andb_prop in Q. lia.
Qed.
Print Assumptions rv64_fcvt_range_refuted.
(** Finding F47: static rounding modes. Arithmetic with any static mode, and
    conversions to integers with nearest-even, fail an assertion... *)
Theorem rv64_rounding_mode_refuted : forall `{FpuOps} c cfg kc i,
  fp_arith (r_mn i) <> None /\ r_misc i <> 7 \/ fp_toint (r_mn i) <> None /\ r_misc i = 0 ->
  lift_rv64 c cfg kc None i = None.
Proof. intros F c cfg kc i [K|[K M]]; apply rm_asserts; [left; exact K|right; split; [exact K|rewrite M; reflexivity]]. Qed.
Print Assumptions rv64_rounding_mode_refuted.
(** ...and on square roots, multiply-add, integer-to-float and double-to-float
    conversions a static mode has no influence on the code. *)
Theorem rv64_rounding_ignored_refuted : forall c cfg kc i m,
  fp_sqrt (r_mn i) <> None \/ fp_fma (r_mn i) <> None \/ fp_fromint (r_mn i) <> None \/ r_mn i = R_FCVTSD ->
  lift_rv64 c cfg kc None (with_rm i m) = lift_rv64 c cfg kc None i.
Proof. exact rm_ignored. Qed.
Print Assumptions rv64_rounding_ignored_refuted.
(** Finding F48: reads of fflags, frm and fcsr always give 0, and writes have no
    effect: the state reached is the one with 0 in rd... *)
Theorem rv64_fcsr_zero_partial : forall `{FpuOps} c cfg kc i s g, rv_ctx c kc i s g ->
  is_csr (r_mn i) = true -> 1 <= r_imm i <= 3 ->
  lifts_to c cfg kc i s (wpc (wx g (r_rd i) 0) (g_pc g + r_len i)) (PcConst (r_end i)).
Proof. intros F c cfg kc i s g [HA GB R KC PC] K I. apply csr_writes; assumption. Qed.
Print Assumptions rv64_fcsr_zero_partial.
(** ...so any other value of the register read is missed. *)
Theorem rv64_fcsr_refuted : forall `{FpuOps} c cfg kc i s g fcsr, rv_ctx c kc i s g ->
  is_csr (r_mn i) = true -> 1 <= r_imm i <= 3 -> r_rd i <> 0 -> csr_read fcsr (r_imm i) <> 0 ->
  misses c cfg kc i s (wpc (wx g (r_rd i) (csr_read fcsr (r_imm i))) (g_pc g + r_len i)).
Proof.
  intros F c cfg kc i s g fcsr [HA GB R KC PC] K I D N. eapply lifts_to_misses; [apply csr_writes; eassumption|].
  apply wx_differs; [exact D|]. change U with trunc. unfold trunc. change (2^64) with 18446744073709551616.
  rewrite (Z.mod_small (csr_read _ _)); [rewrite Z.mod_small; lia|].
  unfold csr_read in *. destruct (r_imm i =? 1); [lia|]. destruct (r_imm i =? 2); lia.
Qed.
Print Assumptions rv64_fcsr_refuted.

(** ** Non-vacuity *)
(** Patterns: 2.5, 1e20 (as double), 1 + 2^-27, 1 - 2^-27, -1. *)
Definition d25 : Z := 0x4004000000000000.
Definition g_d (x y z : Z) : gst :=
  Gst (fun _ => 0) (fun n => if n =? 1 then x else if n =? 2 then y else z) 0x1000 (fun _ => 0).
Lemma g_d_ctx : forall i x y z, r_start i = 0x1000 -> inr 64 x -> inr 64 y -> inr 64 z -> rv_ctx c_ex kc_ex i (st_of (g_d x y z)) (g_d x y z).
Proof.
  intros i x y z S X Y W. split; [reflexivity|exact I| |intros r k E; discriminate|rewrite S; reflexivity].
  split; cbn [st_of g_d s_reg s_mem g_x g_f g_mem]; try reflexivity.
  - intros n N. destruct (Z.eqb_spec n 0); [contradiction|reflexivity].
  - intros; split; lia.
  - intros n. destruct (n =? 1); [exact X|]. destruct (n =? 2); assumption.
Qed.
Definition i_d (mn : rvmnem) (rm : Z) : rvinst := RvInst mn 3 1 2 4 0 rm 0x1000 4.
(** FADD.D 2.5 + 2.5 and FCVT.W.D 2.5 with rounding up. *)
Example ex_fp_correct : let g := g_d d25 d25 0 in
  (exists g', rv_ctx c_ex kc_ex (i_d R_FADDD 7) (st_of g) g /\ @isa_fpa fpu_z (i_d R_FADDD 7) g = Some g' /\ @fpa_pre fpu_z (i_d R_FADDD 7) g /\
     g_f g' 3 = 0x4014000000000000) /\
  (exists g', rv_ctx c_ex kc_ex (i_d R_FCVTWD 3) (st_of g) g /\ @isa_fpa fpu_z (i_d R_FCVTWD 3) g = Some g' /\ @fpa_pre fpu_z (i_d R_FCVTWD 3) g /\
     g_x g' 3 = 3).
Proof.
  intro g. assert (I0 : inr 64 d25) by (split; vm_compute; congruence). assert (I1 : inr 64 0) by (split; lia). split.
  - eexists. split; [apply g_d_ctx; auto|]. split; [vm_compute; reflexivity|]. split; [split; reflexivity|vm_compute; reflexivity].
  - eexists. split; [apply g_d_ctx; auto|]. split; [vm_compute; reflexivity|]. split; [|vm_compute; reflexivity].
    split; [exact fpu_z_conv|]. split; [exact I|]. exists RUP, (5629499534213120, -51).
    split; [reflexivity|]. split; [vm_compute; reflexivity|]. split; [vm_compute; split; congruence|discriminate].
Qed.
(** FMADD.D (1 + 2^-27) * (1 - 2^-27) - 1 is -2^-54; rounding twice gives 0. *)
Example ex_fma : exists i s g g' v, rv_ctx c_ex kc_ex i s g /\ fp_fma (r_mn i) = Some (false, false, FD) /\ @isa_fpa fpu_z i g = Some g' /\
  @fpu_op fpu_z FFma TF64 TF64 [g_f g 1; g_f g 2; g_f g 4] = Some v /\ v = 0xbc90000000000000 /\
  @unfused fpu_z false false FD (g_f g 1) (g_f g 2) (g_f g 4) = Some 0.
Proof.
  exists (i_d R_FMADDD 7). set (g := g_d 0x3ff0000002000000 0x3feffffffc000000 0xbff0000000000000). exists (st_of g), g. eexists _, _.
  split; [apply g_d_ctx; [reflexivity|..]; split; vm_compute; congruence|]. split; [reflexivity|].
  split; [vm_compute; reflexivity|]. split; [vm_compute; reflexivity|]. split; vm_compute; reflexivity.
Qed.
(** FCVT.W.D of 3.5 with the dynamic mode is 4 on the guest; truncated it is 3. FCVT.W.D of 2^40 saturates. *)
Example ex_fcvt : let g := g_d 0x400c000000000000 0 0 in let h := g_d 0x4270000000000000 0 0 in let i := i_d R_FCVTWD 7 in
  rv_ctx c_ex kc_ex i (st_of g) g /\ rv_ctx c_ex kc_ex i (st_of h) h /\
  (exists g' v, @isa_fpa fpu_z i g = Some g' /\ g_x g' 3 = 4 /\ fval FD (g_f g 1) = Some v /\ rint RNE v = 4 /\ rint RTZ v = 3) /\
  (exists h' v, @isa_fpa fpu_z i h = Some h' /\ g_x h' 3 = 2^31 - 1 /\ fval FD (g_f h 1) = Some v /\ rint RTZ v = 2^40).
Proof.
  intros g h i. split; [apply g_d_ctx; [reflexivity|..]; split; vm_compute; congruence|].
  split; [apply g_d_ctx; [reflexivity|..]; split; vm_compute; congruence|].
  split; eexists _, _; (split; [vm_compute; reflexivity|]); repeat split.
Qed.
(** A single-precision addition of boxed 1.0 and 1.0. *)
Example ex_single : let g := g_d 0xffffffff3f800000 0xffffffff3f800000 0 in exists g', rv_ctx c_ex kc_ex (i_d R_FADDS 7) (st_of g) g /\
  @isa_fpa fpu_z (i_d R_FADDS 7) g = Some g' /\ fp_dest R_FADDS = Some FS /\ boxed FS (g_f g 1) /\ g_f g' 3 = 0xffffffff40000000.
Proof.
  intro g. eexists. split; [apply g_d_ctx; [reflexivity|..]; split; vm_compute; congruence|].
  split; [vm_compute; reflexivity|]. repeat split.
Qed.
(** FLE.D: 2.5 <= 2.5 gives 1, NaN <= 2.5 gives 0. *)
Example ex_fp_compare : let n := 0x7ff8000000000000 in let i := i_d R_FLED 0 in
  @A64SimdFpSpec.fpu_ieee A64SimdEx.fpu_a /\ fcmp_rel (r_mn i) = Some (FD, fun r => r_lt r || r_eq r) /\
  rv_ctx c_ex kc_ex i (st_of (g_d n d25 0)) (g_d n d25 0) /\ @fpa_pre A64SimdEx.fpu_a i (g_d n d25 0) /\
  b2z (r_lt (frel FD n d25) || r_eq (frel FD n d25)) = 0 /\
  b2z (r_lt (frel FD d25 d25) || r_eq (frel FD d25 d25)) = 1.
Proof.
  intros n i. split; [exact A64SimdEx.fpu_a_ieee|]. split; [reflexivity|].
  split; [apply g_d_ctx; [reflexivity| | |]; split; vm_compute; congruence|].
  split; [split; exact I|]. split; vm_compute; reflexivity.
Qed.
