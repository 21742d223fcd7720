(** C63 (AArch64 SIMD integer instructions), C64 (structure loads and stores) and C65
    (floating point). *)

From Coq Require Import ZArith Lia ZifyBool List Bool.
From Verif Require Import Bits IR Facet Dsl Rv64Spec Rv64Sim Rv64FpSpec Rv64FpEx.
From Verif Require Import A64Base A64Simd A64SimdMem A64SimdFp A64 A64Spec A64Arith A64Sim A64Dp A64Sys A64SimdSpec A64SimdMemSpec A64SimdFpSpec A64SimdVec A64SimdEval
  A64SimdInt A64SimdMemOk A64SimdFpOk A64SimdFpEq A64SimdStep A64Step A64SimdEx.
Import A64Simd(fop, sop). Import A64Base(fsz).
Import ListNotations.
Open Scope Z_scope.
Ltac Zify.zify_post_hook ::= Z.div_mod_to_equations.

Lemma vec_step : forall `{FpuOps} c cfg i s g v g', k_ctx c i s g -> a_op i = A_VEC v -> vdef v g -> kvec v g = Some g' ->
  k_lifts c cfg i s (wrpc g' (k_pc g + 4)).
Proof.
  intros F c cfg i s g v g' [HA R PC W FK] O D S. eapply liftsp_ctx; [exact R|].
  apply (simd_step c HA cfg i g PC).
  - unfold kwf in W. rewrite O in W. exact W.
  - exact FK.
  - unfold simd_def. rewrite O. exact D.
  - unfold ksimd. rewrite O. exact S.
Qed.
Lemma vec_kstep : forall `{FpuOps} b i g v, a_op i = A_VEC v -> kstep b i g = option_map (fun g' => wrpc g' (k_pc g + 4)) (kvec v g).
Proof.
  intros F b i g v O. unfold kstep, kdp, kcmp, kbr, kcall, kmem, ksys, ksimd. rewrite O. cbn iota. destruct (kvec v g); reflexivity.
Qed.
(** Code that leaves another value in a vector register than the architecture. *)
Lemma emit_misses : forall `{FpuOps} c cfg i s g v g1 g' n, k_ctx c i s g -> a_op i = A_VEC v -> vok c (lift_vec v) g g1 -> k_pc g1 = k_pc g ->
  kvec v g = Some g' -> 0 <= n < 32 -> k_q g1 n <> k_q g' n -> a_misses c cfg i s g.
Proof.
  intros F c cfg i s g v g1 g' n [HA R PC W FK] O (l & L & T) P1 S N NE.
  assert (LI : k_lifts c cfg i s (wrpc g1 (k_pc g + 4))).
  { eapply liftsp_ctx; [exact R|]. eapply lifts_go; [unfold lift_op; rewrite O, L; reflexivity|].
    intro rt. apply T. intro vs. apply (sys_end c i g PC). exact P1. }
  destruct LI as (l1 & s1 & L1 & R1 & K1 & _). exists l1, (wrpc g' (k_pc g + 4)). split; [exact L1|]. split; [rewrite (vec_kstep _ _ _ _ O), S; reflexivity|].
  intros s2 R2 K2. rewrite R1 in R2. injection R2 as <-. pose proof (kr_q _ _ K1 n N) as Q1. pose proof (kr_q _ _ K2 n N) as Q2. cbn [wrpc k_q] in Q1, Q2. congruence.
Qed.

(** ** C63: SIMD integer instructions
    [kint] specifies them by lanes; [kwf] includes [wf_int]. Not covered: those the
    lifter rejects ([a64_simd_int_rejected]), and [idef] excludes register shifts by the
    element size or more ([a64_simd_shift_reg_refuted]). *)
Theorem a64_simd_int_partial : forall `{FpuOps} c cfg i s g v o, k_ctx c i s g -> a_op i = A_VEC v -> v_op v = VI o -> idef v g o ->
  exists g', kint v g o = Some g' /\ k_lifts c cfg i s (wrpc g' (k_pc g + 4)).
Proof.
  intros F c cfg i s g v o C O VO D. pose proof (kx_wf _ _ _ _ C) as W. unfold kwf, wf_simd, wf_vec in W. rewrite O, VO in W.
  destruct (int_ok c v g o (kx_arch _ _ _ _ C) W D) as (g' & K1 & _). exists g'. split; [exact K1|].
  apply (vec_step c cfg i s g v g' C O); [unfold vdef; rewrite VO; exact D|unfold kvec; rewrite VO; exact K1].
Qed.
Print Assumptions a64_simd_int_partial.
Definition q_ex (n : Z) : Z := if n =? 2 then 0x80000001ffff12340102030405060708 else if n =? 3 then 0x0101ff030004ffff0003fe0001ff0207 else 0x10 + n.
Definition q_of `{FpuOps} (n : Z) (v : vinst) (g : kst) : option Z := option_map (fun g' => k_q g' n) (kvec v g).
Definition v_ex : list (vinst * iop) :=
  [(vi (VI V_MLAL) VA_8H FSZ_D true false 0, V_MLAL); (vi (VI V_SHL_REG) VA_8B FSZ_D false false 0, V_SHL_REG); (vi (VI V_TBL) VA_16B FSZ_D false false 2, V_TBL)].
(** SMLAL2 .4S, USHL .8B, TBL of two registers. *)
Example a64_simd_int_nv : (forall v o, In (v, o) v_ex -> k_ctx c_a (avec v) (kst_of (kexq q_ex)) (kexq q_ex) /\ idef v (kexq q_ex) o) /\
  map (fun p => @q_of fpu_a 1 (fst p) (kexq q_ex)) v_ex =
  [Some (U 32 (17 - 0x1234) + U 32 (-4) * 2 ^ 32 + U 32 (-253) * 2 ^ 64 + U 32 (-32768 * 257) * 2 ^ 96);
   Some 0x011000040a031c00; Some 0x07070005080400000805000807000601].
Proof.
  split.
  - intros v o IN. unfold v_ex in IN. split; [apply kctx_exq; cbn [In] in IN; decompose [or] IN; try contradiction;
      match goal with X : (_, _) = _ |- _ => injection X as <- <- end; reflexivity|].
    cbn [In] in IN; decompose [or] IN; try contradiction; match goal with X : (_, _) = _ |- _ => injection X as <- <- end; try exact I.
    intros k K. cbn in K. assert (Q : k = 0 \/ k = 1 \/ k = 2 \/ k = 3 \/ k = 4 \/ k = 5 \/ k = 6 \/ k = 7) by lia.
    decompose [or] Q; subst k; vm_compute; auto.
  - vm_compute. reflexivity.
Qed.
(** The lifter rejects rounding shifts and CLS. *)
Theorem a64_simd_int_rejected : forall cfg i v o, a_op i = A_VEC v -> v_op v = VI o -> o = V_CLS \/ (v_round v = true /\ In o [V_SHL_REG; V_SHR; V_SHRN]) ->
  exists l, lift_a64 cfg i = Some (false, l).
Proof.
  intros cfg i v o O VO Q. unfold lift_a64, lift_op. rewrite O. unfold lift_vec. rewrite VO.
  destruct Q as [->|[RD IN]]; [eexists; reflexivity|]. cbn [In] in IN.
  decompose [or] IN; try contradiction; subst o; unfold lift_int; rewrite RD; eexists; reflexivity.
Qed.
Print Assumptions a64_simd_int_rejected.
(** SSHR and USHR by the element size, which the encoding allows, shift an LLVM value by
    its width: the result is poison. *)
Theorem a64_simd_shr_full_refuted : forall `{FpuOps}, forall sg, let v := vi (VI V_SHR) VA_4S FSZ_D sg false 32 in
  a_misses c_a acfg0 (avec v) (kst_of (kexq q_ex)) (kexq q_ex).
Proof. intros F sg. apply (missb_q _ _ _ _ _ 1); [lia|]. destruct sg; vm_compute; reflexivity. Qed.
Print Assumptions a64_simd_shr_full_refuted.
(** SSHL and USHL with an amount of the element size or more: poison, though the
    architecture shifts everything out. *)
Theorem a64_simd_shift_reg_refuted : forall `{FpuOps}, forall sg, let v := vi (VI V_SHL_REG) VA_16B FSZ_D sg false 0 in let g := kexq (fun n => if n =? 3 then 8 else q_ex n) in
  a_misses c_a acfg0 (avec v) (kst_of g) g.
Proof. intros F sg. apply (missb_q _ _ _ _ _ 1); [lia|]. destruct sg; vm_compute; reflexivity. Qed.
Print Assumptions a64_simd_shift_reg_refuted.

(** ** C64: structure loads and stores (LD1-LD4, ST1-ST4, single and replicating forms) *)
Theorem a64_simd_mem_correct : forall `{FpuOps} c cfg i s g v o, k_ctx c i s g -> a_op i = A_VEC v -> v_op v = VM o ->
  exists g', kmemv v g o = Some g' /\ k_lifts c cfg i s (wrpc g' (k_pc g + 4)).
Proof.
  intros F c cfg i s g v o C O VO. pose proof (kx_wf _ _ _ _ C) as W. unfold kwf, wf_simd, wf_vec in W. rewrite O, VO in W.
  destruct (memv_ok c (kx_arch _ _ _ _ C) v g o W) as (g' & K1 & _). exists g'. split; [exact K1|].
  apply (vec_step c cfg i s g v g' C O); [unfold vdef; rewrite VO; exact I|unfold kvec; rewrite VO; exact K1].
Qed.
Print Assumptions a64_simd_mem_correct.
(** LD2 {v1.16b, v2.16b}, [x1], x2 from a memory holding 01, 02, 03, ...; ST3. *)
Example a64_simd_mem_nv : let g := kexq q_ex in
  let v := vi (VM V_LD2) VA_16B FSZ_D false false 0 in let v' := vi (VM V_ST3) VA_8H FSZ_D false false 0 in
  k_ctx c_a (avec v) (kst_of g) g /\ k_ctx c_a (avec v') (kst_of g) g /\
  option_map (fun g' => (k_q g' 1, k_q g' 2, k_x g' 1)) (kmemv v g V_LD2) =
    Some (0x1f1d1b19171513110f0d0b0907050301, 0x201e1c1a18161412100e0c0a08060402, 0x4003) /\
  option_map (fun g' => (k_m g' 0x2001, k_m g' 0x2003, k_m g' 0x2004)) (kmemv v' g V_ST3) = Some (0x11, 0x08, 0x07).
Proof. cbv zeta. split; [apply kctx_exq; reflexivity|]. split; [apply kctx_exq; reflexivity|]. split; vm_compute; reflexivity. Qed.

(** ** C65: floating point
    [kfp], [ksfp] specify the vector and scalar instructions in single and double
    precision; [fpu_ieee] says that LLVM's comparison, sign, conversion, rounding,
    maximum and scaling operations are IEEE's; [fdef], [sdef] exclude the operands for which the
    code is wrong (refuted below). *)
Theorem a64_fp_vector_partial : forall `{FpuOps} c cfg i s g v o g', fpu_ieee -> k_ctx c i s g -> a_op i = A_VEC v -> v_op v = VF o ->
  (forall z, vfmt (v_va v) = Some z -> fdef v g z o) -> kfp v g o = Some g' -> k_lifts c cfg i s (wrpc g' (k_pc g + 4)).
Proof.
  intros F c cfg i s g v o g' FI C O VO D S. apply (vec_step c cfg i s g v g' C O); [unfold vdef; rewrite VO; auto|unfold kvec; rewrite VO; exact S].
Qed.
Print Assumptions a64_fp_vector_partial.
Theorem a64_fp_scalar_partial : forall `{FpuOps} c cfg i s g v o g', fpu_ieee -> k_ctx c i s g -> a_op i = A_VEC v -> v_op v = VS o ->
  (forall z, sfmt (v_fsz v) = Some z -> sdef v g z o) -> ksfp v g o = Some g' -> k_lifts c cfg i s (wrpc g' (k_pc g + 4)).
Proof.
  intros F c cfg i s g v o g' FI C O VO D S. apply (vec_step c cfg i s g v g' C O); [unfold vdef; rewrite VO; auto|unfold kvec; rewrite VO; exact S].
Qed.
Print Assumptions a64_fp_scalar_partial.
Theorem a64_fccmp_partial : forall `{FpuOps} c cfg i s g f, fpu_ieee -> k_ctx c i s g -> kfccmp i g = Some f ->
  k_lifts c cfg i s (wrpc (wrf g f) (k_pc g + 4)).
Proof.
  intros F c cfg i s g f FI [HA R PC W FK] S. assert (O : a_op i = A_FCCMP) by (unfold kfccmp in S; destruct (a_op i); discriminate S || reflexivity).
  eapply liftsp_ctx; [exact R|]. apply (simd_step c HA cfg i g PC).
  - unfold kwf in W. rewrite O in W. exact W.
  - exact FK.
  - unfold simd_def. rewrite O. exact FI.
  - unfold ksimd. rewrite O, S. reflexivity.
Qed.
Print Assumptions a64_fccmp_partial.

(** Doubles 1.5, -2.25, 0.5; singles 1.0, -0.0, NaN. *)
Definition q_fd (n : Z) : Z := if n =? 2 then 0xc0020000000000003ff8000000000000 else if n =? 3 then 0x3fe0000000000000c002000000000000 else 0x3fe00000000000003ff8000000000000.
Definition q_fs (n : Z) : Z := if n =? 2 then 0x3f800000800000003f80000040200000 else if n =? 3 then 0x7fc000003f80000080000000c0900000 else 0x3f8000003f8000003f8000003f800000.
(** FMLA .2D: 1.5 + 1.5 * -2.25 = -1.875, 0.5 + -2.25 * 0.5 = -0.625; FCVTZS .2D: 1, -2. *)
Example a64_fp_vector_nv : let g := kexq q_fd in
  let v := vi (VF V_FMLA) VA_2D FSZ_D false false 0 in let v' := vi (VF V_FCVT) VA_2D FSZ_D true false 0 in
  @fpu_ieee fpu_a /\ k_ctx c_a (avec v) (kst_of g) g /\ k_ctx c_a (avec v') (kst_of g) g /\
  (forall z, vfmt (v_va v) = Some z -> @fdef fpu_a v g z V_FMLA) /\ (forall z, vfmt (v_va v') = Some z -> @fdef fpu_a v' g z V_FCVT) /\
  @q_of fpu_a 1 v g = Some 0xbfe4000000000000bffe000000000000 /\ @q_of fpu_a 1 v' g = Some 0xfffffffffffffffe0000000000000001.
Proof.
  cbv zeta. split; [exact fpu_a_ieee|]. split; [apply kctx_exq; reflexivity|]. split; [apply kctx_exq; reflexivity|].
  split; [|split; [|split; vm_compute; reflexivity]].
  - intros z E. injection E as <-. intros k K. cbn in K. assert (Q : k = 0 \/ k = 1) by lia. destruct Q; subst k; vm_compute; reflexivity.
  - intros z E. injection E as <-. intros k K. cbn in K. assert (Q : k = 0 \/ k = 1) by lia. split; [|left; reflexivity]. destruct Q; subst k; vm_compute; split; discriminate.
Qed.
(** Fixed point with 4 fraction bits, .2D: 1.5 and -2.25 give 24 and -36; 24 and -36 give them
    back; likewise x3 := d2 and d1 := x1. *)
Definition vfx (o : vop) : vinst := VInst o VA_2D false true false false 1 2 3 4 (RX 3) (RX 1) (RX 2) 0 1 2 2 1 32 VAM_POST FSZ_D FPR_ZERO 4.
Example a64_fp_fixed_nv : let g := kexq q_fd in let g' := kexq (fun _ => 0xffffffffffffffdc0000000000000018) in
  k_ctx c_a (avec (vfx (VF V_FCVT))) (kst_of g) g /\ k_ctx c_a (avec (vfx (VF V_CVTF))) (kst_of g') g' /\
  k_ctx c_a (avec (vfx (VS S_FCVT_GPR))) (kst_of g) g /\ k_ctx c_a (avec (vfx (VS S_CVTF))) (kst_of g) g /\
  @fdef fpu_a (vfx (VF V_FCVT)) g FD V_FCVT /\ @sdef fpu_a (vfx (VS S_FCVT_GPR)) g FD S_FCVT_GPR /\
  @q_of fpu_a 1 (vfx (VF V_FCVT)) g = Some 0xffffffffffffffdc0000000000000018 /\ @q_of fpu_a 1 (vfx (VF V_CVTF)) g' = Some 0xc0020000000000003ff8000000000000 /\
  option_map (fun g' => k_x g' 3) (@ksfp fpu_a (vfx (VS S_FCVT_GPR)) g S_FCVT_GPR) = Some 24 /\
  (* x1 = 0x2001: 512.0625 *) @q_of fpu_a 1 (vfx (VS S_CVTF)) g = Some 0x4080008000000000.
Proof.
  cbv zeta. do 4 (split; [apply kctx_exq; reflexivity|]). split.
  { intros k K. cbn in K. assert (Q : k = 0 \/ k = 1) by lia. split; [|right; split; [cbn; lia|right]]; destruct Q; subst k; vm_compute; first [discriminate|split; discriminate]. }
  split; [split; [|right; split; [cbn; lia|right]]; vm_compute; first [discriminate|split; discriminate]|]. repeat split; vm_compute; reflexivity.
Qed.
(** FCVTZS x3, d2 (1); FMAX d1, d2, d3 (1.5); FCMP d2, d3 (greater: C). *)
Example a64_fp_scalar_nv : let g := kexq q_fd in
  let v1 := vi (VS S_FCVT_GPR) VA_2D FSZ_D true false 0 in let v2 := vi (VS S_FMAX) VA_2D FSZ_D false false 0 in let v3 := vi (VS S_FCMP) VA_2D FSZ_D false false 0 in
  (forall v o, In (v, o) [(v1, S_FCVT_GPR); (v2, S_FMAX); (v3, S_FCMP)] -> k_ctx c_a (avec v) (kst_of g) g /\ forall z, sfmt (v_fsz v) = Some z -> @sdef fpu_a v g z o) /\
  option_map (fun g' => k_x g' 3) (@ksfp fpu_a v1 g S_FCVT_GPR) = Some 1 /\ @q_of fpu_a 1 v2 g = Some 0x3ff8000000000000 /\
  option_map (fun g' => map (k_f g') [fN; fZ; fC; fV]) (@ksfp fpu_a v3 g S_FCMP) = Some [Some false; Some false; Some true; Some false].
Proof.
  cbv zeta. split; [|split; [|split]; vm_compute; reflexivity].
  intros v o IN. cbn [In] in IN. decompose [or] IN; try contradiction; match goal with X : (_, _) = _ |- _ => injection X as <- <- end;
    (split; [apply kctx_exq; reflexivity|]); intros z E; injection E as <-.
  - split; [|left; reflexivity]. vm_compute. split; discriminate.
  - split; vm_compute; discriminate.
  - exact I.
Qed.
Example a64_fccmp_nv : let g := kexq q_fd in let i := AInst A_FCCMP false false RZR RZR RZR RZR RZR RZR 0 0 SH_LSL 0 UXTW 0 0 0 1 0 5 AM_SIMPLE UXTX FSZ_D 1 2 3 4 0x1000 in
  k_ctx c_a i (kst_of g) g /\ option_map (fun f => map f [fN; fZ; fC; fV]) (kfccmp i g) = Some [Some false; Some true; Some false; Some true].
Proof. cbv zeta. split; [apply kctx_exq; reflexivity|vm_compute; reflexivity]. Qed.

(** FMAX and FMIN of a number and a quiet NaN give the NaN; the code, which is llvm.maxnum
    or llvm.minnum, gives the number. *)
Theorem a64_fmax_nan_refuted : forall `{FpuOps} c cfg i s g v o z, fpu_ieee -> k_ctx c i s g -> a_op i = A_VEC v -> v_op v = VS o -> In o [S_FMAX; S_FMIN] ->
  sfmt (v_fsz v) = Some z -> let x := U (fwid z) (k_q g (v_rn v)) in let y := U (fwid z) (k_q g (v_rm v)) in
  (fnan z x = false /\ fnan z y = true /\ fsnan z y = false) \/ (fnan z y = false /\ fnan z x = true /\ fsnan z x = false) ->
  a_misses c cfg i s g.
Proof.
  intros F c cfg i s g v o z FI C O VO IN SF0 x y Q. pose proof (kx_wf _ _ _ _ C) as W. unfold kwf, wf_simd, wf_vec in W. rewrite O, VO in W.
  pose proof W as W'. unfold wf_sfp in W'. do 5 (apply andb_true_iff in W' as [W' ?]).
  assert (IX : inr (fwid z) x) by apply U_fi. assert (IY : inr (fwid z) y) by apply U_fi.
  assert (SN : forall a, fnan z a = false -> fsnan z a = false) by (intros a A; unfold fsnan; rewrite A; reflexivity).
  set (num := if fnan z x then y else x). set (nn := if fnan z x then x else y).
  assert (E : esfp v g z o = Some (wrq g (v_rd v) num) /\ ksfp v g o = Some (wrq g (v_rd v) nn) /\ num <> nn).
  { assert (NE : num <> nn) by (unfold num, nn; destruct Q as [(A & B & _)|(A & B & _)]; rewrite ?A, ?B; intro; congruence).
    assert (EV : forall f, In f [FMaxnum; FMinnum] -> fpo f (fty z) (fty z) [x; y] = Some num).
    { intros f FN. unfold fpo, num. destruct Q as [(A & B & _)|(A & B & _)].
      - rewrite (proj1 (fi_nan FI f z x y FN IX IY A B)), A. cbn [option_map]. apply (f_equal Some). apply trunc_small. rewrite ts_fty. exact IX.
      - rewrite (proj2 (fi_nan FI f z y x FN IY IX A B)), B. cbn [option_map]. apply (f_equal Some). apply trunc_small. rewrite ts_fty. exact IY. }
    assert (SP : fpmax z x y = nn /\ fpmin z x y = nn).
    { unfold fpmax, fpmin, fpnans, nn. destruct Q as [(A & B & D)|(A & B & D)]; rewrite (SN _ A), D, A, B; auto. }
    unfold ksfp. rewrite SF0. cbn [ob In] in *. destruct SP as [SP1 SP2].
    destruct IN as [<-|[<-|[]]]; unfold esfp, ksfp_z; fold x y; rewrite EV by (cbn; tauto); rewrite ?SP1, ?SP2; cbn [ob]; auto. }
  destruct E as (E & K1 & NE).
  apply (emit_misses c cfg i s g v (wrq g (v_rd v) num) (wrq g (v_rd v) nn) (v_rd v) C O).
  - unfold lift_vec. rewrite VO. apply (sfp_emit c v g z o _ (kx_arch _ _ _ _ C) SF0 W E).
  - reflexivity.
  - unfold kvec. rewrite VO. exact K1.
  - unfold okq in *. lia.
  - cbn [wrq k_q]. rewrite Z.eqb_refl. exact NE.
Qed.
Print Assumptions a64_fmax_nan_refuted.
Example a64_fmax_nan_nv : let g := kexq q_fs in let v := vi (VS S_FMAX) VA_4S FSZ_S false false 0 in
  let q n := if n =? 3 then 0x7fc00000 else 0x3f800000 in
  k_ctx c_a (avec v) (kst_of (kexq q)) (kexq q) /\ fnan FS (q 2) = false /\ fnan FS (q 3) = true /\ fsnan FS (q 3) = false.
Proof. cbv zeta. split; [apply kctx_exq; reflexivity|]. repeat split. Qed.
(** Likewise the vector and reduction forms. *)
Theorem a64_fmaxv_nan_refuted : let v o := vi (VF o) VA_4S FSZ_S false false 0 in @fpu_ieee fpu_a /\
  forall o, In o [V_FMAX; V_FMIN] -> @a_misses fpu_a c_a acfg0 (avec (v o)) (kst_of (kexq q_fs)) (kexq q_fs).
Proof.
  split; [exact fpu_a_ieee|]. intros o IN. apply (missb_q _ _ _ _ _ 1); [lia|]. cbn [In] in IN. decompose [or] IN; try contradiction; subst o; vm_compute; reflexivity.
Qed.
Print Assumptions a64_fmaxv_nan_refuted.
(** FMAX of zeros of different sign gives +0, FMIN gives -0; llvm.maxnum and llvm.minnum
    may give either operand, here the first. *)
Theorem a64_fmax_zero_refuted : let q (m : bool) n := if n =? 2 then if m then 0x8000000000000000 else 0 else if m then 0 else 0x8000000000000000 in let v o := vi o VA_2D FSZ_D false false 0 in @fpu_ieee fpu_a /\
  (forall o, In o [VF V_FMAX; VS S_FMAX] -> @a_misses fpu_a c_a acfg0 (avec (v o)) (kst_of (kexq (q true))) (kexq (q true))) /\
  (forall o, In o [VF V_FMIN; VS S_FMIN] -> @a_misses fpu_a c_a acfg0 (avec (v o)) (kst_of (kexq (q false))) (kexq (q false))).
Proof.
  split; [exact fpu_a_ieee|]. split; intros o IN; (apply (missb_q _ _ _ _ _ 1); [lia|]); cbn [In] in IN; decompose [or] IN; try contradiction; subst o; vm_compute; reflexivity.
Qed.
Print Assumptions a64_fmax_zero_refuted.

(** FMADD rounds the product: whenever that changes the result, the code is wrong. *)
Theorem a64_fmadd_refuted : forall `{FpuOps} c cfg i s g v z m u f, k_ctx c i s g -> a_op i = A_VEC v -> v_op v = VS S_FMADD -> sfmt (v_fsz v) = Some z ->
  let x := U (fwid z) (k_q g (v_rn v)) in let y := U (fwid z) (k_q g (v_rm v)) in let a := U (fwid z) (k_q g (v_ra v)) in
  fpo FMul (fty z) (fty z) [x; y] = Some m -> fpo FAdd (fty z) (fty z) [m; a] = Some u -> fpo FFma (fty z) (fty z) [x; y; a] = Some f -> u <> f ->
  a_misses c cfg i s g.
Proof.
  intros F c cfg i s g v z m u f C O VO SF0 x y a EM EU EF NE. pose proof (kx_wf _ _ _ _ C) as W. unfold kwf, wf_simd, wf_vec in W. rewrite O, VO in W.
  pose proof W as W'. unfold wf_sfp in W'. do 5 (apply andb_true_iff in W' as [W' ?]).
  apply (emit_misses c cfg i s g v (wrq g (v_rd v) u) (wrq g (v_rd v) f) (v_rd v) C O).
  - unfold lift_vec. rewrite VO. apply (sfp_emit c v g z S_FMADD _ (kx_arch _ _ _ _ C) SF0 W). unfold esfp. fold x y a. rewrite EM. cbn [ob]. rewrite EU. reflexivity.
  - reflexivity.
  - unfold kvec. rewrite VO. unfold ksfp. rewrite SF0. cbn [ob]. unfold ksfp_z. fold x y a. rewrite EF. reflexivity.
  - unfold okq in *. lia.
  - cbn [wrq k_q]. rewrite Z.eqb_refl. exact NE.
Qed.
Print Assumptions a64_fmadd_refuted.
(** (1 + 2^-52) * (1 + 2^-52) - (1 + 2^-51): 2^-104 fused, 0 with the product rounded. *)
Example a64_fmadd_nv : let v := vi (VS S_FMADD) VA_2D FSZ_D false false 0 in
  let q n := if n =? 4 then 0xbff0000000000002 else 0x3ff0000000000001 in let g := kexq q in
  k_ctx c_a (avec v) (kst_of g) g /\ @fpo fpu_a FMul TF64 TF64 [U 64 (q 2); U 64 (q 3)] = Some 0x3ff0000000000002 /\
  @fpo fpu_a FAdd TF64 TF64 [0x3ff0000000000002; U 64 (q 4)] = Some 0 /\ @fpo fpu_a FFma TF64 TF64 [U 64 (q 2); U 64 (q 3); U 64 (q 4)] = Some 0x3970000000000000.
Proof. cbv zeta. split; [apply kctx_exq; reflexivity|]. repeat split; vm_compute; reflexivity. Qed.
(** Likewise the vector forms. *)
Theorem a64_fmla_refuted : let q n := if n =? 1 then 0xbff0000000000002 else 0x3ff0000000000001 in let v o := vi (VF o) VA_2D FSZ_D false false 0 in @fpu_ieee fpu_a /\
  forall o, In o [V_FMLA; V_FMLA_ELEM] -> @a_misses fpu_a c_a acfg0 (avec (v o)) (kst_of (kexq q)) (kexq q).
Proof.
  split; [exact fpu_a_ieee|]. intros o IN. apply (missb_q _ _ _ _ _ 1); [lia|]. cbn [In] in IN. decompose [or] IN; try contradiction; subst o; vm_compute; reflexivity.
Qed.
Print Assumptions a64_fmla_refuted.
(** FMUL by element adds the product to a null vector: 1.0 * -0.0 gives +0.0. *)
Theorem a64_fmul_elem_refuted : let q n := if n =? 3 then 0x80000000 else 0x3f800000 in let v := vi (VF V_FMUL_ELEM) VA_4S FSZ_S false false 0 in @fpu_ieee fpu_a /\
  @a_misses fpu_a c_a acfg0 (avec v) (kst_of (kexq q)) (kexq q).
Proof. split; [exact fpu_a_ieee|]. apply (missb_q _ _ _ _ _ 1); [lia|]. vm_compute. reflexivity. Qed.
Print Assumptions a64_fmul_elem_refuted.
(** The scalar single-precision compares (FCMEQ s1, s2, s3 and so on) compare the low 64
    bits of the registers as doubles: here equal singles below different upper lanes. *)
Theorem a64_fcmeq_single_refuted : let q n := if n =? 3 then 0x3f80000040000000 else 0x4000000040000000 in
  let v o := vi (VF o) VA_4S FSZ_S false true 0 in @fpu_ieee fpu_a /\
  forall o, In o [V_FCMEQ; V_FCMGE; V_FCMGT; V_FCMGT_Z] -> @a_misses fpu_a c_a acfg0 (avec (v o)) (kst_of (kexq q)) (kexq q).
Proof.
  split; [exact fpu_a_ieee|]. intros o IN. apply (missb_q _ _ _ _ _ 1); [lia|]. cbn [In] in IN. decompose [or] IN; try contradiction; subst o; vm_compute; reflexivity.
Qed.
Print Assumptions a64_fcmeq_single_refuted.
(** Conversions of NaN or of values out of range: 0 or saturated in the architecture,
    poison in the code. *)
Theorem a64_fcvt_range_refuted : let v := vi (VS S_FCVT_GPR) VA_2D FSZ_D true false 0 in @fpu_ieee fpu_a /\
  forall q, In q [0x7ff8000000000000; 0x43f0000000000000; 0xfff0000000000000] -> @a_misses fpu_a c_a acfg0 (avec v) (kst_of (kexq (fun _ => q))) (kexq (fun _ => q)).
Proof.
  split; [exact fpu_a_ieee|]. intros q IN. apply (missb_x _ _ _ _ _ 3); [lia|]. cbn [In] in IN. decompose [or] IN; try contradiction; subst q; vm_compute; reflexivity.
Qed.
Print Assumptions a64_fcvt_range_refuted.
Theorem a64_fcvt_vec_range_refuted : let v := vi (VF V_FCVT) VA_2D FSZ_D true false 0 in @fpu_ieee fpu_a /\
  forall q, In q [0x7ff8000000000000; 0x43f0000000000000; 0xfff0000000000000] -> @a_misses fpu_a c_a acfg0 (avec v) (kst_of (kexq (fun _ => q))) (kexq (fun _ => q)).
Proof.
  split; [exact fpu_a_ieee|]. intros q IN. apply (missb_q _ _ _ _ _ 1); [lia|]. cbn [In] in IN. decompose [or] IN; try contradiction; subst q; vm_compute; reflexivity.
Qed.
Print Assumptions a64_fcvt_vec_range_refuted.
(** Half-precision two-operand arithmetic is not rejected; its code applies floating-point operations
    to i16 values, which no LLVM verifier accepts. *)
Lemma gf16 : forall x, ty_of (get_facet x I16) = TInt 16.
Proof. intros [z|]; reflexivity. Qed.
Lemma fp2_i16 : forall `{FpuOps} f x y, ty_of x = TInt 16 -> fp2_sem f (TInt 16) x y = TyErr.
Proof. intros F f x y E. unfold fp2_sem. rewrite E. cbn [elt is_fp Z.eqb]. rewrite andb_false_r. reflexivity. Qed.
Theorem a64_half_refuted : forall `{FpuOps} c cfg i s v o, a_op i = A_VEC v -> v_op v = VS o -> v_fsz v = FSZ_H ->
  In o [S_FADD; S_FSUB; S_FMUL; S_FDIV; S_FMAX; S_FMIN; S_FMAXNM; S_FMINNM; S_FNMUL; S_FMADD; S_FMSUB; S_FNMADD; S_FNMSUB] ->
  exists l, lift_a64 cfg i = Some (true, l) /\ run c s l = TyErr.
Proof.
  intros F c cfg i s v o O VO HF IN. unfold lift_a64, lift_op. rewrite O. unfold lift_vec. rewrite VO.
  assert (L : exists l, lift_sfp v o = Some (Some l) /\ forall s l', run c s (SPcConst (a_start i) :: l ++ l') = TyErr).
  { cbn [In] in IN. decompose [or] IN; try contradiction; subst o; unfold lift_sfp, LiftFMA, ret; rewrite HF; eexists; (split; [reflexivity|]); intros s0 l'; lazy beta iota zeta delta [run run1 bind map rdv emit app ev eval leaf_val rG with_var with_pc upd_var eF1 eF2 vX sc_facet facet_type sem1 sem2 s_reg s_var s_pc s_mem s_ret Nat.eqb]; rewrite fp2_i16 by apply gf16; reflexivity. }
  destruct L as (l & -> & R). eexists. split; [reflexivity|]. apply R.
Qed.
Print Assumptions a64_half_refuted.
