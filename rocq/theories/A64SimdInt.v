(** The lifted AArch64 SIMD integer and permutation instructions against A64SimdSpec.v. *)

From Coq Require Import ZArith Lia ZifyBool List Bool.
From Verif Require Import Bits IR Facet Dsl Rv64Spec Rv64Sim Rv64Arith X86Spec X86Arith X86Sse X86SseSpec X86SseVec X86SseOps.
From Verif Require Import A64Base A64Simd A64 A64Spec A64Arith A64Sim A64Dp A64Mem A64Sys A64SimdSpec A64SimdVec A64SimdEval.
Import ListNotations.
Open Scope Z_scope.
Ltac Zify.zify_post_hook ::= Z.div_mod_to_equations.

(** Operand ranges of the architecture's encodings; two are narrower, see [V_SHR]
    (shift amount below the element size, and no rounding) and [idef]. *)
Definition wf_int (i : vinst) (o : iop) : bool :=
  let w := esize (v_va i) in
  let idx k := (0 <=? k) && (k <? 128 / w) in
  let vec_only := negb (v_scalar i) in
  let sc64 := negb (v_scalar i) || (w =? 64) in
  okq (v_rd i) && okq (v_rn i) && okq (v_rm i) && okx (v_xd i) && okx (v_xn i) &&
  match o with
  | V_CLS => false
  | V_SHL_IMM => sc64 && (0 <=? v_imm i) && (v_imm i <? w)
  | V_SHR => sc64 && negb (v_round i) && (1 <=? v_imm i) && (v_imm i <? w)
  | V_SRA => sc64 && (1 <=? v_imm i) && (v_imm i <=? w)
  | V_SHL_REG => sc64 && negb (v_round i)
  | V_CMEQ | V_CMEQ_Z | V_CMGE | V_CMGE_Z | V_CMGT | V_CMGT_Z | V_CMHI | V_CMHS | V_CMLE_Z | V_CMLT_Z | V_CMTST
  | V_ABS | V_NEG | V_ADD | V_SUB | V_MOVI => sc64
  | V_DUP_ELEM => idx (v_imm i)
  | V_DUP_GPR => vec_only && (w <=? bits (v_w32 i))
  | V_INS_GPR => idx (v_imm i) && (w <=? bits (v_w32 i))
  | V_INS_ELEM => idx (v_src i) && idx (v_dst i)
  | V_SMOV | V_UMOV => idx (v_imm i) && (w <=? bits (v_w32 i))
  | V_ADDP | V_ADDV | V_MAXV | V_MINV => true
  | V_SHLL => vec_only && negb (w =? 64) && (0 <=? v_imm i) && (v_imm i <? 2 * w)
  | V_SHRN => vec_only && negb (v_round i) && negb (w =? 64) && (1 <=? v_imm i) && (v_imm i <=? w)
  | V_XTN | V_ABDL | V_ABAL | V_MULL | V_MLAL | V_MLSL | V_ADDL | V_ADDW | V_SUBL | V_SUBW | V_ADALP | V_ADDLP => vec_only && negb (w =? 64)
  | V_MULL_ELEM | V_MLAL_ELEM | V_MLSL_ELEM => vec_only && negb (w =? 64) && idx (v_imm i)
  | V_MUL_ELEM | V_MLA_ELEM | V_MLS_ELEM => vec_only && idx (v_imm i)
  | V_EXT => vec_only && (0 <=? v_imm i) && (v_imm i <? elems (v_va i))
  | V_TBL | V_TBX => vec_only && (w =? 8) && (1 <=? v_imm i) && (v_imm i <=? 4)
  | V_ZIP1 | V_ZIP2 | V_UZP1 | V_UZP2 | V_ADDP_VEC | V_MAXP | V_MINP => vec_only && (2 <=? elems (v_va i))
  | V_REV16 => vec_only && (w =? 8)
  | V_REV32 => vec_only && (w <=? 16)
  | V_REV64 => vec_only && (w <=? 32)
  | _ => vec_only
  end.
(** Register shifts by less than the element size in either direction. *)
Definition idef (i : vinst) (g : kst) (o : iop) : Prop :=
  match o with
  | V_SHL_REG => forall k, 0 <= k < (if v_scalar i then 1 else elems (v_va i)) ->
      let w := esize (v_va i) in - w < S_ 8 (U 8 (Ln w (k_q g (v_rm i)) k)) < w
  | _ => True
  end.

Lemma dw_facts : forall v, esize v <> 64 -> exists dv, DoubleWidth v = Some dv /\ esize dv = 2 * esize v /\ elems dv = 64 / esize v.
Proof. intros [] NE; try (exfalso; apply NE; reflexivity); eexists; repeat split. Qed.
Lemma up_isq : forall v, esize v <> 64 -> upper_half v = isq v.
Proof. intros [] NE; try reflexivity; exfalso; apply NE; reflexivity. Qed.
Lemma full_facts : forall v, esize (FullVa v) = esize v /\ elems (FullVa v) = 128 / esize v.
Proof. intros []; split; reflexivity. Qed.
Lemma half_n : forall v, esize v <> 64 -> 1 <= 64 / esize v <= 8 /\ elems v = (if isq v then 2 * (64 / esize v) else 64 / esize v) /\ 128 / esize v = 2 * (64 / esize v) /\
  esize v * (64 / esize v) = 64.
Proof. intros [] NE; try (exfalso; apply NE; reflexivity); vm_compute; intuition congruence. Qed.

Section Int.
Context `{FpuOps}.
Variable c : cenv.
Hypothesis HA : c_arch c = AArch64.
Variable i : vinst.
Variable g : kst.
Notation v := (v_va i).
Notation w := (esize (v_va i)).
Notation psh := (psh c).
Notation vok := (vok c).
Hypothesis OD : okq (v_rd i) = true.
Hypothesis ON : okq (v_rn i) = true.
Hypothesis OM : okq (v_rm i) = true.

Lemma rd_sh : forall vs x q, vs x = Some (get_facet (Some q) (ifacet i)) -> psh vs (vX x) (shape i) (TInt w) (Ln w q).
Proof. intros vs x q E. rewrite gf_sh in E. apply (psh_var c vs x (shape i) (TInt w) q E); [cbn; pose proof (es_pos v); lia|pose proof (sh_pos i); lia]. Qed.
Lemma rd_g : forall vs x q d w' n, vs x = Some (get_facet (Some q) (FacetOf d false)) -> esize d = w' -> elems d = n -> psh vs (vX x) (Vc n) (TInt w') (Ln w' q).
Proof.
  intros vs x q d w' n E <- <-. rewrite gf_va in E. apply (psh_var c vs x (Vc (elems d)) (TInt (esize d)) q E); [cbn; pose proof (es_pos d); lia|cbn; pose proof (el_pos d); lia].
Qed.
Notation NN := (if v_scalar i then 1 else elems v).
Lemma scnt_sh : scnt (shape i) = NN.
Proof. unfold shape. destruct (v_scalar i); reflexivity. Qed.

Lemma one_ok : forall rs e f f', nodup3 rs = true -> forallb (fun r => okq (snd (fst r))) rs = true ->
  (forall vs, rv_ok g rs vs -> psh vs e (shape i) (TInt w) f) -> (forall k, 0 <= k < scnt (shape i) -> f k = U w (f' k)) ->
  vok (ret rs (v_rd i) e) g (wrq g (v_rd i) (out w NN f')).
Proof.
  intros rs e f f' ND OK P E. unfold out. rewrite <- scnt_sh. pose proof (es_pos v). pose proof (es_el v). pose proof (sh_pos i).
  eapply (ret_ok c HA rs (v_rd i) e g (shape i) (TInt w) f (fun k => U w (f' k))); auto; cbn [tsize]; try lia.
  unfold shape. destruct (v_scalar i); cbn [scnt]; lia.
Qed.
Lemma one_okv : forall rs e f f', v_scalar i = false -> nodup3 rs = true -> forallb (fun r => okq (snd (fst r))) rs = true ->
  (forall vs, rv_ok g rs vs -> psh vs e (Vc (elems v)) (TInt w) f) -> (forall k, 0 <= k < elems v -> f k = U w (f' k)) ->
  vok (ret rs (v_rd i) e) g (wrq g (v_rd i) (out w NN f')).
Proof.
  intros rs e f f' SC ND OK P E. assert (SH : shape i = Vc (elems v)) by (unfold shape; rewrite SC; reflexivity).
  apply (one_ok rs e f f' ND OK); rewrite SH; assumption.
Qed.
Lemma n_ok : forall rs e f f' w' n h, nodup3 rs = true -> forallb (fun r => okq (snd (fst r))) rs = true -> 0 <= w' -> 0 <= n -> w' * n <= 128 -> scnt h = n ->
  (forall vs, rv_ok g rs vs -> psh vs e h (TInt w') f) -> (forall k, 0 <= k < n -> f k = U w' (f' k)) ->
  vok (ret rs (v_rd i) e) g (wrq g (v_rd i) (out w' n f')).
Proof.
  intros rs e f f' w' n h ND OK W N L <- P E. unfold out.
  eapply (ret_ok c HA rs (v_rd i) e g h (TInt w') f (fun k => U w' (f' k))); auto.
Qed.
Lemma long_ok : forall rs e f f', w <> 64 -> nodup3 rs = true -> forallb (fun r => okq (snd (fst r))) rs = true ->
  (forall vs, rv_ok g rs vs -> psh vs e (Vc (64 / w)) (TInt (2 * w)) f) -> (forall k, 0 <= k < 64 / w -> f k = U (2 * w) (f' k)) ->
  vok (ret rs (v_rd i) e) g (wrq g (v_rd i) (out (2 * w) (64 / w) f')).
Proof.
  intros rs e f f' NE ND OK P E. pose proof (half_n v NE) as (A & _ & _ & B). pose proof (es_pos v).
  eapply (n_ok rs e f f' (2 * w) (64 / w) (Vc (64 / w))); auto; try lia; reflexivity.
Qed.
Lemma narrow_ok : forall rs e f f', w <> 64 -> nodup3 (rs ++ [(2%nat, v_rd i, FacetOf v false)]) = true -> forallb (fun r => okq (snd (fst r))) rs = true ->
  (forall vs, rv_ok g rs vs -> psh vs e (Vc (64 / w)) (TInt w) f) -> (forall k, 0 <= k < 64 / w -> f k = U w (f' k)) ->
  vok (InsertInHalf v false rs (v_rd i) e) g
    (wrq g (v_rd i) (if isq v then out w (128 / w) (fun k => if k <? 64 / w then Ln w (k_q g (v_rd i)) k else f' (k - 64 / w)) else out w (64 / w) f')).
Proof.
  intros rs e f f' NE ND OK P E. pose proof (half_n v NE) as (A & N & B & L). pose proof (es_pos v) as W. unfold InsertInHalf. rewrite up_isq by exact NE.
  assert (ND' : nodup3 rs = true).
  { clear - ND. induction rs as [|r rs IH]; [reflexivity|]. cbn [app nodup3] in ND |- *. apply andb_true_iff in ND. destruct ND as [X Y].
    rewrite IH by exact Y. rewrite existsb_app, negb_orb in X. apply andb_true_iff in X. destruct X as [X _]. rewrite X. reflexivity. }
  destruct (isq v) eqn:Q; cbn [negb].
  - assert (RA : forall vs, rv_ok g (rs ++ [(2%nat, v_rd i, FacetOf v false)]) vs -> rv_ok g rs vs /\ vs 2%nat = Some (get_facet (Some (k_q g (v_rd i))) (FacetOf v false))).
    { clear. induction rs as [|[[x r] fc] rs IH]; cbn [app rv_ok]; intros vs R; [intuition|]. destruct R as [R R']. destruct (IH vs R') as [X Y]. auto. }
    eapply (n_ok _ _ (fun k => if k <? 64 / w then Ln w (k_q g (v_rd i)) k else f (k - 64 / w)) _ w (128 / w) (Vc (128 / w))); [exact ND| | | | |reflexivity| |]; try lia.
    + rewrite forallb_app, OK. cbn [forallb snd fst]. rewrite OD. reflexivity.
    + intros vs R. destruct (RA vs R) as [R1 R2]. specialize (P vs R1). rewrite ne_elems, N. rewrite B.
      set (n := 64 / w) in *. replace (2 * n / 2) with n by lia.
      replace (ElemTypeOf v false) with (TInt w) by (destruct v; reflexivity).
      assert (PD : pvec c vs (vX 2) (2 * n) (TInt w) (Ln w (k_q g (v_rd i)))).
      { eapply (rd_g vs 2%nat); [exact R2|reflexivity|]. lia. }
      assert (PE : pvec c vs (eShuf (zseq (2 * n)) e (eNull (TVec n (TInt w)))) (2 * n) (TInt w) (fun k => if k <? n then f k else 0)).
      { eapply (psh_shuf c vs _ (fun k => k)); [apply zseq_id|exact P|apply pvec_null; cbn; lia|cbn; lia|lia|]. intros k K. split; [lia|]. reflexivity. }
      cbn [A64SimdVec.psh]. eapply (psh_shuf c vs _ (fun k => if k <? n then k else k + n)); [reflexivity|exact PD|exact PE|cbn; lia|lia|].
      intros k K. destruct (Z.ltb_spec k n).
      * split; [lia|]. replace (k <? 2 * n) with true by lia. reflexivity.
      * split; [lia|]. replace (k + n <? 2 * n) with false by lia. replace (k + n - 2 * n <? n) with true by lia. f_equal. lia.
    + intros k K. destruct (Z.ltb_spec k (64 / w)); [symmetry; apply trunc_small; apply Ln_inr; lia|apply E; lia].
  - eapply (n_ok _ _ f _ w (64 / w) (Vc (64 / w))); auto; try lia; reflexivity.
Qed.
Definition goalo (o : iop) : Prop := match kint i g o with Some g' => vok (lift_int i o) g g' | None => True end.
Lemma cst_sh : forall z, (if v_scalar i then cI w z else eSplat (elems v) w z) = eCst (shape i) w z.
Proof. intro z. unfold shape. destruct (v_scalar i); reflexivity. Qed.
Lemma f64_sh : (v_scalar i = true -> w = 64) -> (if v_scalar i then I64 else FacetOf v false) = ifacet i.
Proof. intro E. unfold ifacet. destruct (v_scalar i); [|reflexivity]. specialize (E eq_refl). destruct v; try discriminate E; reflexivity. Qed.
Lemma elem_ok : forall vs q k, vs 4%nat = Some (get_facet (Some q) (FacetOf (FullVa v) false)) -> 0 <= k < 128 / w ->
  pv c vs (E1 (OExtract k) (vX 4)) (V (TInt w) (Ln w q k)).
Proof.
  intros vs q k E K. destruct (full_facts v) as [A B]. pose proof (rd_g vs 4%nat q (FullVa v) w (128 / w) E A B) as P.
  apply (pv_extract c vs k (vX 4) (128 / w) (TInt w)); [exact P|cbn; pose proof (es_pos v); lia|exact K].
Qed.
Lemma splat_elem : forall vs q k n, vs 4%nat = Some (get_facet (Some q) (FacetOf (FullVa v) false)) -> 0 <= k < 128 / w ->
  psh vs (E1 (OSplat n) (E1 (OExtract k) (vX 4))) (Vc n) (TInt w) (fun _ => Ln w q k).
Proof. intros vs q k n E K. pose proof (es_pos v). eapply pvec_splatv; [apply elem_ok; eassumption|lia|apply Ln_inr; lia]. Qed.
Lemma shuf_lin : forall vs n a b f g0 m t0 w0, psh vs a (Vc n) (TInt w0) f -> psh vs b (Vc n) (TInt w0) g0 -> 0 <= t0 -> 0 <= m -> m * (n - 1) + t0 < 2 * n -> 0 <= n -> 0 <= w0 ->
  psh vs (eShuf (linear n m t0) a b) (Vc n) (TInt w0) (fun k => if m * k + t0 <? n then f (m * k + t0) else g0 (m * k + t0 - n)).
Proof.
  intros vs n a b f g0 m t0 w0 A B T M L N0 W0. eapply (psh_shuf c vs _ (fun k => m * k + t0)); [reflexivity|exact A|exact B|exact W0|exact N0|].
  intros k K. split; [nia|reflexivity].
Qed.
Lemma Halve_psh : forall vs a f, w <> 64 -> psh vs a (Vc (elems v)) (TInt w) f ->
  psh vs (Halve v false a) (Vc (64 / w)) (TInt w) (fun k => f (if isq v then 64 / w + k else k)).
Proof. intros vs a f NE A. exact (Halve_ok c vs v a f NE A). Qed.
Lemma up_n : w <> 64 -> (if upper_half v then elems v / 2 else elems v) = 64 / w.
Proof. intro NE. rewrite up_isq by exact NE. destruct (half_n v NE) as (A & B & _). rewrite B. destruct (isq v); lia. Qed.

Ltac side := cbn [tsize scnt] in *; first [assumption|lia].
Ltac eqs := first [reflexivity|eassumption].
Ltac rdgo := first [eapply rd_sh; eassumption | eapply rd_g; [eassumption|eqs|eqs]].
Ltac pgo :=
  lazymatch goal with
  | |- A64SimdVec.psh ?c ?vs ?e ?h (TInt ?w0) _ =>
    let bin L a b := (refine (L c vs a b h w0 _ _ _ _ _); [pgo|pgo|side]) in
    lazymatch e with
    | vX _ => rdgo
    | eNull _ => refine (psh_null c vs h (TInt w0) _); side
    | eNotT _ ?a => refine (psh_not c vs a h w0 _ _ _ _); [pgo|side|side]
    | eNegT _ ?a => refine (psh_neg c vs a h w0 _ _ _); [pgo|side]
    | AbsT _ ?a => refine (psh_abs c vs a h w0 _ _ _ _); [pgo|side|side]
    | MinMax ?a ?b ?sg ?mn => refine (psh_minmax c vs sg mn a b h w0 _ _ _ _ _ _); [pgo|pgo|side|side]
    | eSplat _ _ ?z => refine (psh_cst c vs h w0 z _ _); side
    | eCst _ _ ?z => refine (psh_cst c vs h w0 z _ _); side
    | eAnd ?a ?b => bin (@psh_and H) a b
    | eOr ?a ?b => bin (@psh_or H) a b
    | eXor ?a ?b => bin (@psh_xor H) a b
    | eAdd ?a ?b => bin (@psh_add H) a b
    | eSub ?a ?b => bin (@psh_sub H) a b
    | eMul ?a ?b => bin (@psh_mul H) a b
    | eBin And ?a ?b => bin (@psh_and H) a b
    | eBin Or ?a ?b => bin (@psh_or H) a b
    | eBin Xor ?a ?b => bin (@psh_xor H) a b
    | eBin Add ?a ?b => bin (@psh_add H) a b
    | eBin Sub ?a ?b => bin (@psh_sub H) a b
    | eCast CTrunc _ ?a => eapply (psh_trunc c vs a h _ w0); [pgo|side]
    | eCast CSExt _ (eCmp ?p ?a ?b) => refine (psh_sext c vs (eCmp p a b) h 1 w0 _ _ _); [eapply (psh_cmp c vs p a b h); [pgo|pgo|side]|side]
    | eExtT ?sg _ ?a => eapply (psh_extT c vs sg a h _ w0); [pgo|side|side]
    | eBin (if ?sg then AShr else LShr) ?a (eSplat _ _ ?z) => refine (psh_shrc c vs sg a h w0 _ z _ _ _); [pgo|side|side]
    | eBin (if ?sg then AShr else LShr) ?a (eCst _ _ ?z) => refine (psh_shrc c vs sg a h w0 _ z _ _ _); [pgo|side|side]
    | E1 (OSplat _) (E1 (OExtract _) (vX 4)) => eapply splat_elem; [eassumption|side]
    | eShuf (even ?n) ?a ?b => refine (shuf_lin vs n a b _ _ 2 0 w0 _ _ _ _ _ _ _); [pgo|pgo|side|side|side|side|side]
    | eShuf (odd ?n) ?a ?b => refine (shuf_lin vs n a b _ _ 2 1 w0 _ _ _ _ _ _ _); [pgo|pgo|side|side|side|side|side]
    | eShuf (linear ?n 1 ?m) ?a ?b => refine (shuf_lin vs n a b _ _ 1 m w0 _ _ _ _ _ _ _); [pgo|pgo|side|side|side|side|side]
    | Halve _ _ ?a => refine (Halve_psh vs a _ _ _); [side|pgo]
    end
  end.
Ltac nrm := lazy beta iota zeta delta [LiftThreeSame LiftCm LiftMulAcc LiftMulAccElem LiftLong Pairwise LiftRev];
  repeat match goal with E : DoubleWidth _ = Some _ |- _ => rewrite E end; cbv beta iota zeta;
  rewrite ?ty_va, ?ext_va, ?ft_va, ?es_bits, ?ne_elems;
  repeat match goal with E : esize _ = 2 * _ |- _ => rewrite E end; repeat match goal with E : elems _ = _ / _ |- _ => rewrite E end.
Ltac oks := cbn [app forallb snd fst nodup3 existsb rn3 Nat.eqb negb andb orb]; rewrite ?OD, ?ON, ?OM; reflexivity.
Ltac rvs := let R := fresh "R" in intros vs R; cbn [app rv_ok] in R; repeat match goal with X : (vs _ = _) /\ _ |- _ => destruct X end.
Ltac lne := intros k K; cbn beta; change U with trunc.
Ltac vec1 := lazy beta iota zeta delta [goalo kint vres_int option_map lift_int]; nrm; eapply one_okv; [assumption|oks|oks|rvs; pgo|lne].

Lemma lnI : forall q k, inr w (Ln w q k).
Proof. intros. apply Ln_inr. pose proof (es_pos v). lia. Qed.
Lemma tr_id : forall x, inr w x -> x = trunc w x.
Proof. intros. symmetry. apply trunc_small. assumption. Qed.
(** ** Instructions with scalar forms *)
Section Scalar.
Hypothesis S64 : v_scalar i = true -> w = 64.
Let W := es_pos v.
Let N := sh_pos i.
Ltac prep := lazy beta iota zeta delta [goalo kint vres_int option_map lift_int]; nrm; rewrite ?f64_sh by assumption; fold (ifacet i); rewrite ?ft_sh, ?cst_sh.
Ltac sc1 := prep; eapply one_ok; [oks|oks|rvs; pgo|lne].
Lemma ok_ADD : goalo V_ADD. Proof. sc1. reflexivity. Qed.
Lemma ok_SUB : goalo V_SUB. Proof. sc1. reflexivity. Qed.
Lemma ok_NEG : goalo V_NEG. Proof. sc1. reflexivity. Qed.
Lemma ok_ABS : goalo V_ABS. Proof. sc1. reflexivity. Qed.
Lemma ok_SHR : v_round i = false -> 1 <= v_imm i < w -> goalo V_SHR. Proof. intros RD R. lazy beta iota zeta delta [goalo kint vres_int option_map lift_int]. rewrite RD. sc1. reflexivity. Qed.
Lemma ok_SHL_IMM : 0 <= v_imm i < w -> goalo V_SHL_IMM.
Proof. intros R. prep. eapply one_ok; [oks|oks|rvs|lne]; [eapply (psh_shlc c vs _ (shape i)); [pgo|side|side]|reflexivity]. Qed.
Lemma mask_lane : forall b, sext 1 w (b2z b) = trunc w (mask_if w b).
Proof. intro b. rewrite sext_mask by lia. apply tr_id. apply mask_if_inr. lia. Qed.
Lemma sgn0_ : sgn w 0 = 0.
Proof. unfold sgn. pose proof (pow2_pos (w - 1) ltac:(lia)). destruct (Z.ltb_spec 0 (2 ^ (w - 1))); lia. Qed.
Ltac cm := sc1; cbn [icmp_sem]; rewrite mask_lane, ?sgn0_; rewrite <- ?S_small by apply lnI; reflexivity.
Lemma ok_CMEQ : goalo V_CMEQ. Proof. cm. Qed.
Lemma ok_CMEQ_Z : goalo V_CMEQ_Z. Proof. cm. Qed.
Lemma ok_CMGE : goalo V_CMGE. Proof. cm. Qed.
Lemma ok_CMGE_Z : goalo V_CMGE_Z. Proof. cm. Qed.
Lemma ok_CMGT : goalo V_CMGT. Proof. cm. Qed.
Lemma ok_CMGT_Z : goalo V_CMGT_Z. Proof. cm. Qed.
Lemma ok_CMHI : goalo V_CMHI. Proof. cm. Qed.
Lemma ok_CMHS : goalo V_CMHS. Proof. cm. Qed.
Lemma ok_CMLE_Z : goalo V_CMLE_Z. Proof. cm. Qed.
Lemma ok_CMLT_Z : goalo V_CMLT_Z. Proof. cm. Qed.
Lemma ok_CMTST : goalo V_CMTST. Proof. cm. Qed.
Lemma ok_MOVI : goalo V_MOVI.
Proof.
  prep. eapply one_ok; [oks|oks| |].
  - intros vs _. instantiate (1 := fun _ => trunc w (v_imm i)). unfold shape. destruct (v_scalar i) eqn:SC.
    + rewrite <- (S64 eq_refl). apply (psh_cst c vs Sc); cbn [scnt]; lia.
    + unfold Dup. rewrite ne_elems. apply (psh_cst c vs (Vc (elems v))); cbn [scnt]; pose proof (el_pos v); lia.
  - lne. reflexivity.
Qed.
(** SSRA, USRA, SRSRA, URSRA. *)
Lemma sra_lane : forall (sg : bool) x, inr w x -> 1 <= v_imm i <= w ->
  trunc w (s_ sg w (if (w <=? v_imm i) && negb sg then 0 else x) / 2 ^ (if w <=? v_imm i then if sg then w - 1 else 0 else v_imm i)) = trunc w (s_ sg w x / 2 ^ v_imm i).
Proof.
  intros sg x X R. destruct (Z.leb_spec w (v_imm i)) as [L|L]; [|reflexivity]. replace (v_imm i) with w by lia. destruct sg; cbn [andb negb s_].
  - f_equal. pose proof (S_range w x ltac:(lia)) as B. assert (E : 2 ^ w = 2 * 2 ^ (w - 1)) by (rewrite <- Z.pow_succ_r by lia; f_equal; lia). rewrite E.
    pose proof (pow2_pos (w - 1) ltac:(lia)) as P. set (m := 2 ^ (w - 1)) in *. destruct (Z.ltb_spec (S_ w x) 0).
    + rewrite <- (Z.div_unique_pos (S_ w x) m (-1) (S_ w x + m)) by lia. symmetry. rewrite <- (Z.div_unique_pos (S_ w x) (2 * m) (-1) (S_ w x + 2 * m)) by lia. reflexivity.
    + rewrite !Z.div_small by lia. reflexivity.
  - rewrite Z.div_small by (pose proof (pow2_pos 0 ltac:(lia)); lia). rewrite Z.div_small by (unfold inr in X; lia). reflexivity.
Qed.
Lemma ok_SRA : 1 <= v_imm i <= w -> goalo V_SRA.
Proof.
  intro R. set (d := if v_scalar i then VA_1D else v). assert (DE : esize d = w) by (unfold d; destruct (v_scalar i); [symmetry; apply S64; reflexivity|reflexivity]).
  assert (DN : elems d = NN) by (unfold d; destruct (v_scalar i); reflexivity).
  lazy beta iota zeta delta [goalo kint vres_int option_map lift_int]. fold d. rewrite ty_va, ext_va, es_bits, ne_elems, DE, DN.
  assert (NP : 1 <= NN <= 16) by (rewrite <- scnt_sh; lia).
  assert (NB : w * NN <= 128) by (rewrite <- DE, <- DN; apply es_el).
  pose proof (pow2_pos (v_imm i - 1) ltac:(lia)) as PI.
  destruct (v_round i).
  - replace (2 * w <=? v_imm i) with false by lia. cbn [andb].
    eapply (n_ok _ _ _ _ w NN (Vc NN)); [oks|oks|lia|lia|lia|reflexivity|rvs; pgo|lne].
    rewrite trunc_trunc_le by lia. rewrite <- (tr_addr w _ (_ / 2 ^ v_imm i)). rewrite <- (tr_addr w (Ln w (k_q g (v_rd i)) k)). do 2 f_equal.
    rewrite trunc_trunc by lia. apply (tr_shr w (2 * w)); try lia. rewrite tr_s, trunc_trunc by lia. rewrite tr_addl.
    rewrite (Z.mod_small (2 ^ (v_imm i - 1)) (2 ^ 64)) by (pose proof (Z.pow_lt_mono_r 2 (v_imm i - 1) 64 ltac:(lia) ltac:(lia)); lia).
    rewrite tr_addr, ?DE. reflexivity.
  - eapply (n_ok _ _ _ _ w NN (Vc NN)); [oks|oks|lia|lia|lia|reflexivity| |].
    + rvs. assert (PS : psh vs (if (w <=? v_imm i) && negb (v_sgn i) then eNull (TV NN w) else vX 0) (Vc NN) (TInt w)
        (fun k => if (w <=? v_imm i) && negb (v_sgn i) then 0 else Ln w (k_q g (v_rn i)) k)).
      { destruct ((w <=? v_imm i) && negb (v_sgn i)); [apply (psh_null c vs (Vc NN) (TInt w)); cbn; lia|]. eapply rd_g; [eassumption|exact DE|exact DN]. }
      eapply psh_add; [eapply rd_g; [eassumption|exact DE|exact DN]|eapply (psh_shrc c vs (v_sgn i) _ (Vc NN) w); [exact PS| |cbn [scnt]; lia]|lia].
      destruct (Z.leb_spec w (v_imm i)); [destruct (v_sgn i)|]; lia.
    + lne. pose proof (sra_lane (v_sgn i) (Ln w (k_q g (v_rn i)) k) (lnI _ _) R) as Q. unfold s_ in Q. rewrite Q. rewrite tr_addr, Z.add_0_r. reflexivity.
Qed.
(** ** Register shifts *)
Lemma shreg_lane : forall vs lhs r8 ext x y (sg : bool) w0, 8 <= w0 <= 64 -> pv c vs lhs (V (TInt w0) x) -> inr w0 x -> pv c vs r8 (V (TInt 8) y) -> inr 8 y ->
  pv c vs ext (V (TInt w0) (trunc w0 (S_ 8 y))) -> - w0 < S_ 8 y < w0 ->
  pv c vs (eSel (eCmp SGE r8 (cI 8 0)) (eShl lhs ext) (eBin (if sg then AShr else LShr) lhs (eNegT (TInt w0) ext)))
    (V (TInt w0) (trunc w0 (if 0 <=? S_ 8 y then s_ sg w0 x * 2 ^ S_ 8 y else s_ sg w0 x / 2 ^ (- S_ 8 y)))).
Proof.
  intros vs lhs r8 ext x y sg w0 W0 L X R Y E B. pose proof (Z.pow_gt_lin_r 2 w0 ltac:(lia) ltac:(lia)) as PW.
  assert (CE : pv c vs (eCmp SGE r8 (cI 8 0)) (V (TInt 1) (b2z (0 <=? S_ 8 y)))).
  { rewrite S_small by exact Y. eapply pv_2; [exact R|apply (pv_const c vs (TInt 8) 0)|]. reflexivity. }
  assert (NG : pv c vs (eNegT (TInt w0) ext) (V (TInt w0) (trunc w0 (- S_ 8 y)))).
  { eapply pv_2; [apply (pv_const c vs (TInt w0) 0)|exact E|]. cbn [sem2]. unfold bin_sem, same2. cbn [ty_of ty_eqb]. rewrite Z.eqb_refl. cbn [int_shape ibin of_ires tsize].
    rewrite tr_sub. reflexivity. }
  assert (BS : forall op a b z1 z2 (r : rv), pv c vs a (V (TInt w0) z1) -> pv c vs b (V (TInt w0) z2) -> of_ires (TInt w0) (ibin op w0 z1 z2) = Ok r -> pv c vs (eBin op a b) r).
  { intros op a b z1 z2 r A0 B0 Q. eapply pv_2; [exact A0|exact B0|]. cbn [sem2]. unfold bin_sem, same2. cbn [ty_of ty_eqb]. rewrite Z.eqb_refl. exact Q. }
  destruct (Z.leb_spec 0 (S_ 8 y)) as [P|P]; cbn [b2z] in CE.
  - assert (TS : trunc w0 (S_ 8 y) = S_ 8 y) by (apply trunc_small; unfold inr; lia). rewrite TS in E.
    assert (RS : exists r, pv c vs (eBin (if sg then AShr else LShr) lhs (eNegT (TInt w0) ext)) r /\ ty_of r = TInt w0).
    { destruct sg; unfold eBin at 1; cbn [ibin] in *.
      - destruct (trunc w0 (- S_ 8 y) <? w0) eqn:Q; [eexists (V (TInt w0) _)|exists (Poison (TInt w0))]; (split; [eapply (BS AShr); [exact L|exact NG|cbn [ibin]; rewrite Q; reflexivity]|reflexivity]).
      - destruct (trunc w0 (- S_ 8 y) <? w0) eqn:Q; [eexists (V (TInt w0) _)|exists (Poison (TInt w0))]; (split; [eapply (BS LShr); [exact L|exact NG|cbn [ibin]; rewrite Q; reflexivity]|reflexivity]). }
    destruct RS as (r & RS & RT). eapply pv_3; [exact CE| |exact RS|].
    + eapply (BS Shl); [exact L|exact E|]. cbn [ibin]. replace (S_ 8 y <? w0) with true by lia. reflexivity.
    + cbn [sem3]. unfold sel_sem. cbn [ty_of]. rewrite RT. cbn [ty_eqb]. rewrite Z.eqb_refl. change (1 =? 0) with false. cbv iota. do 2 f_equal.
      rewrite Z.shiftl_mul_pow2 by lia. rewrite <- (tr_mull w0 (s_ sg w0 x)). unfold s_. rewrite tr_s by lia. rewrite tr_mull. reflexivity.
  - assert (TS : trunc w0 (- S_ 8 y) = - S_ 8 y) by (apply trunc_small; unfold inr; lia). rewrite TS in NG.
    assert (RS : exists r, pv c vs (eShl lhs ext) r /\ ty_of r = TInt w0).
    { destruct (trunc w0 (S_ 8 y) <? w0) eqn:Q; [eexists (V (TInt w0) _)|exists (Poison (TInt w0))]; (split; [eapply (BS Shl); [exact L|exact E|cbn [ibin]; rewrite Q; reflexivity]|reflexivity]). }
    destruct RS as (r & RS & RT).
    assert (RV : pv c vs (eBin (if sg then AShr else LShr) lhs (eNegT (TInt w0) ext)) (V (TInt w0) (trunc w0 (s_ sg w0 x / 2 ^ (- S_ 8 y))))).
    { destruct sg; cbn [s_].
      - eapply (BS AShr); [exact L|exact NG|]. cbn [ibin]. replace (- S_ 8 y <? w0) with true by lia. rewrite Z.shiftr_div_pow2 by lia; rewrite (S_small w0 x) by exact X. reflexivity.
      - eapply (BS LShr); [exact L|exact NG|]. cbn [ibin]. replace (- S_ 8 y <? w0) with true by lia. rewrite Z.shiftr_div_pow2 by lia. cbn [of_ires].
        rewrite trunc_small; [reflexivity|]. apply div_inr; [lia|lia|exact X]. }
    eapply pv_3; [exact CE|exact RS|exact RV|]. cbn [sem3]. unfold sel_sem. cbn [ty_of]. rewrite RT. cbn [ty_eqb]. rewrite Z.eqb_refl. reflexivity.
Qed.
Lemma Ln_trunc8 : forall q k, trunc 8 (Ln w q k) = U 8 (Ln w q k).
Proof. reflexivity. Qed.
Lemma ok_SHL_REG : v_round i = false -> idef i g V_SHL_REG -> goalo V_SHL_REG.
Proof.
  intros RD D. cbn [idef] in D. cbv zeta in D. lazy beta iota zeta delta [goalo kint vres_int option_map lift_int]. rewrite RD.
  destruct (v_scalar i) eqn:SC.
  - specialize (S64 eq_refl). eapply (n_ok _ _ _ _ w 1 Sc); [oks|oks|lia|lia|lia|reflexivity| |].
    + rvs. match goal with A : vs 0%nat = _, B : vs 1%nat = _ |- _ => cbn [get_facet] in A, B; rename A into A0, B into B0 end.
      instantiate (1 := fun k => trunc w (if 0 <=? S_ 8 (U 8 (Ln w (k_q g (v_rm i)) 0)) then s_ (v_sgn i) w (Ln w (k_q g (v_rn i)) 0) * 2 ^ S_ 8 (U 8 (Ln w (k_q g (v_rm i)) 0))
         else s_ (v_sgn i) w (Ln w (k_q g (v_rn i)) 0) / 2 ^ (- S_ 8 (U 8 (Ln w (k_q g (v_rm i)) 0))))).
      specialize (D 0 ltac:(lia)). rewrite S64 in *. split; [|apply trunc_inr; cbn; lia].
      assert (Y : inr 8 (U 8 (Ln 64 (k_q g (v_rm i)) 0))) by (apply trunc_inr; lia).
      assert (B1 : pv c vs (vX 1) (V (TInt 8) (U 8 (Ln 64 (k_q g (v_rm i)) 0)))).
      { apply pv_var. rewrite B0. rewrite Ln0. change U with trunc. rewrite trunc_trunc_le by lia. reflexivity. }
      eapply shreg_lane; [lia|apply pv_var; rewrite A0, Ln0; reflexivity|apply Ln_inr; lia|exact B1|exact Y| |exact D].
      eapply pv_1; [exact B1|]. cbn [sem1]. unfold cast_sem, cast_fun. cbn [ty_of ty_eqb]. change (8 =? 64) with false. cbn [icast]. change (8 <=? 64) with true. cbv iota.
      unfold sext. rewrite S_small by exact Y. reflexivity.
    + lne. replace k with 0 by lia. reflexivity.
  - rewrite es_bits, ne_elems. pose proof (el_pos v) as EP. eapply (n_ok _ _ _ _ w (elems v) (Vc (elems v))); [oks|oks|lia|lia|apply es_el|reflexivity| |].
    + rvs. match goal with A : vs 0%nat = _, B : vs 1%nat = _ |- _ =>
        pose proof (rd_g vs 0%nat _ v w (elems v) A eq_refl eq_refl) as A0; pose proof (rd_g vs 1%nat _ v w (elems v) B eq_refl eq_refl) as B0 end.
      apply eLanes_ok; [lia|lia|]. intros k K. split; [|apply trunc_inr; lia].
      pose proof (pv_extract c vs k _ _ (TInt w) _ A0 ltac:(cbn; lia) K) as A1. pose proof (pv_extract c vs k _ _ (TInt w) _ B0 ltac:(cbn; lia) K) as B1.
      assert (Y : inr 8 (U 8 (Ln w (k_q g (v_rm i)) k))) by (apply trunc_inr; lia).
      assert (B8 : pv c vs (if w =? 8 then E1 (OExtract k) (vX 1) else eTrunc 8 (E1 (OExtract k) (vX 1))) (V (TInt 8) (U 8 (Ln w (k_q g (v_rm i)) k)))).
      { destruct (Z.eqb_spec w 8) as [E|E].
        - rewrite E in *. change U with trunc. rewrite trunc_small by (apply Ln_inr; lia). exact B1.
        - refine (proj1 (psh_trunc c vs _ Sc w 8 (fun _ => Ln w (k_q g (v_rm i)) k) _ ltac:(lia))). split; [exact B1|apply Ln_inr; cbn; lia]. }
      eapply shreg_lane; [lia|exact A1|apply Ln_inr; lia|exact B8|exact Y| |apply D; exact K].
      destruct (Z.eqb_spec w 8) as [E|E].
      * rewrite E in *. rewrite trunc_S, trunc_small by (exact Y || lia). exact B8.
      * rewrite S_small by exact Y. refine (proj1 (psh_sext c vs _ Sc 8 w (fun _ => U 8 (Ln w (k_q g (v_rm i)) k)) _ ltac:(lia))). split; [exact B8|exact Y].
    + lne. reflexivity.
Qed.
End Scalar.

(** ** Element moves and reductions *)
Section Elems.
Let W := es_pos v.
Let N := el_pos v.
Lemma full_n : w * (128 / w) = 128 /\ 2 <= 128 / w <= 16.
Proof. destruct v; vm_compute; intuition congruence. Qed.
Lemma ok_DUP_ELEM : 0 <= v_imm i < 128 / w -> goalo V_DUP_ELEM.
Proof.
  intro R. lazy beta iota zeta delta [goalo kint vres_int option_map lift_int]. eapply one_ok; [oks|oks| |].
  - rvs. instantiate (1 := fun _ => Ln w (k_q g (v_rn i)) (v_imm i)). unfold shape. destruct (v_scalar i).
    + split; [apply elem_ok; assumption|apply lnI].
    + unfold Dup. rewrite ne_elems. apply splat_elem; assumption.
  - lne. apply tr_id, lnI.
Qed.
Lemma insert_ok : forall vs e j x, rv_ok g [(2%nat, v_rd i, FacetOf (FullVa v) false)] vs -> pv c vs e (V (TInt w) x) -> inr w x -> 0 <= j < 128 / w ->
  psh vs (E2 (OInsert j) (vX 2) e) (Vc (128 / w)) (TInt w) (fun k => if k =? j then x else Ln w (k_q g (v_rd i)) k).
Proof.
  intros vs e j x (R & _) E X J. destruct (full_facts v) as [A B]. eapply pvec_insert; [|exact E|cbn; lia|exact X|exact J].
  eapply (rd_g vs 2%nat); [exact R|exact A|exact B].
Qed.
Lemma ok_INS_ELEM : 0 <= v_src i < 128 / w -> 0 <= v_dst i < 128 / w -> goalo V_INS_ELEM.
Proof.
  intros R1 R2. pose proof full_n as [F1 F2]. lazy beta iota zeta delta [goalo kint vres_int option_map lift_int InsertElem].
  eapply (n_ok _ _ _ _ w (128 / w) (Vc (128 / w))); [oks|oks|lia|lia|lia|reflexivity| |].
  - rvs. eapply insert_ok; [split; [eassumption|exact I]|apply elem_ok; [eassumption|exact R1]|apply lnI|exact R2].
  - lne. apply tr_id. destruct (_ =? _); apply lnI.
Qed.
Lemma ok_ADDP : goalo V_ADDP.
Proof.
  lazy beta iota zeta delta [goalo kint vres_int option_map lift_int]. eapply (n_ok _ _ _ _ 64 1 Sc); [oks|oks|lia|lia|lia|reflexivity| |].
  - rvs. eapply (reduce_ok c vs eAdd (fun x y => trunc 64 (x + y)) _ 2 64); [eapply (rd_g vs 0%nat _ VA_2D); [eassumption|reflexivity|reflexivity]|lia|lia|].
    intros a b x y A B X Y. split; [|apply trunc_inr; lia]. exact (proj1 (psh_add c vs a b Sc 64 (fun _ => x) (fun _ => y) (conj A X) (conj B Y) ltac:(lia))).
  - lne. reflexivity.
Qed.
Lemma ok_ADDV : goalo V_ADDV.
Proof.
  lazy beta iota zeta delta [goalo kint vres_int option_map lift_int]. rewrite ne_elems. eapply (n_ok _ _ _ _ w 1 Sc); [oks|oks|lia|lia|lia|reflexivity| |].
  - rvs. eapply (reduce_ok c vs eAdd (fun x y => trunc w (x + y)) _ (elems v) w); [eapply (rd_g vs 0%nat _ v); [eassumption|reflexivity|reflexivity]|lia|lia|].
    intros a b x y A B X Y. split; [|apply trunc_inr; lia]. exact (proj1 (psh_add c vs a b Sc w (fun _ => x) (fun _ => y) (conj A X) (conj B Y) ltac:(lia))).
  - lne. apply red_add; [lia|apply lnI].
Qed.
Lemma mm_ok : forall (o : intr2) (G : Z -> Z -> Z) (sg : bool) vs, (forall x y, inr w x -> inr w y -> inr w (intr2_sem o w x y) /\ s_ sg w (intr2_sem o w x y) = G (s_ sg w x) (s_ sg w y)) ->
  rv_ok g [(0%nat, v_rn i, FacetOf v false)] vs ->
  psh vs (eReduce (fun a b => E2 (OIntr2 o) a b) (elems v) (vX 0)) Sc (TInt w) (fun _ => trunc w (red G (fun k => s_ sg w (Ln w (k_q g (v_rn i)) k)) (Z.to_nat (elems v - 1)))).
Proof.
  intros o G sg vs X (R & _).
  destruct (red_map (inr w) (intr2_sem o w) G (s_ sg w) (Ln w (k_q g (v_rn i))) (Z.to_nat (elems v - 1)) (fun k _ => lnI _ k) X) as [I0 E].
  rewrite <- E. unfold s_ at 1. rewrite tr_s, trunc_small by (exact I0 || lia).
  eapply (reduce_ok c vs (fun a b => E2 (OIntr2 o) a b) (intr2_sem o w) _ (elems v) w); [eapply (rd_g vs 0%nat _ v); [eassumption|reflexivity|reflexivity]|lia|lia|].
  intros a b x y A B X0 Y0. split; [|apply X; assumption]. eapply pv_2; [exact A|exact B|]. cbn [sem2]. unfold intr2_rv, same2. cbn [ty_of ty_eqb]. rewrite Z.eqb_refl. reflexivity.
Qed.
Lemma ok_MAXV : goalo V_MAXV.
Proof.
  lazy beta iota zeta delta [goalo kint vres_int option_map lift_int]. rewrite ne_elems. eapply (n_ok _ _ _ _ w 1 Sc); [oks|oks|lia|lia|lia|reflexivity| |].
  - intros vs R. eapply (mm_ok _ Z.max (v_sgn i)); [|exact R]. intros x y X Y. destruct (v_sgn i); cbn [intr2_sem s_]; rewrite <- ?S_small by assumption;
      match goal with |- context [?a <? ?b] => destruct (Z.ltb_spec a b) end; split; (assumption || lia).
  - lne. reflexivity.
Qed.
Lemma ok_MINV : goalo V_MINV.
Proof.
  lazy beta iota zeta delta [goalo kint vres_int option_map lift_int]. rewrite ne_elems. eapply (n_ok _ _ _ _ w 1 Sc); [oks|oks|lia|lia|lia|reflexivity| |].
  - intros vs R. eapply (mm_ok _ Z.min (v_sgn i)); [|exact R]. intros x y X Y. destruct (v_sgn i); cbn [intr2_sem s_]; rewrite <- ?S_small by assumption;
      match goal with |- context [?a <? ?b] => destruct (Z.ltb_spec a b) end; split; (assumption || lia).
  - lne. reflexivity.
Qed.
(** ** General registers *)
Lemma gp_ok : forall rs e f f' w' n h b, existsb (fun r => Nat.eqb 3 (rn3 r)) rs = false -> nodup3 rs = true -> forallb (fun r => okq (snd (fst r))) rs = true -> okx (v_xn i) = true ->
  0 <= w' -> 0 <= n -> w' * n <= 128 -> scnt h = n ->
  (forall vs, rv_ok g rs vs -> vs 3%nat = Some (V (TInt (bits b)) (rdx g (v_xn i) (bits b))) -> psh vs e h (TInt w') f) -> (forall k, 0 <= k < n -> f k = U w' (f' k)) ->
  vok (Some (Some (SLet 3 (GetGp (v_xn i) b) :: emit rs (v_rd i) e))) g (wrq g (v_rd i) (out w' n f')).
Proof.
  intros rs e f f' w' n h b N3 ND OK OX W0 N0 L <- P E. eexists. split; [reflexivity|]. intros p rt l' Q C. cbn [app]. eapply K_let; [apply kv_vals, kv_gp; exact OX|].
  unfold emit. rewrite <- app_assoc. apply K_reads; [exact ND|exact OK|]. intros vs' M R. cbn [app].
  assert (V3 : vs' 3%nat = Some (V (TInt (bits b)) (rdx g (v_xn i) (bits b)))) by (apply M; [reflexivity|exact N3]).
  assert (P' : forall vs, rv_ok g rs vs -> vs 3%nat = Some (V (TInt (bits b)) (rdx g (v_xn i) (bits b))) -> psh vs e h (TInt w') (fun k => U w' (f' k)))
    by (intros vs V0 V1; eapply psh_ext; [apply P; assumption|exact N0|exact E]).
  eapply (K_setq c HA).
  - intros s rt0 (_ & _ & VS & _). refine (psh_pv c (s_var s) e h (TInt w') _ (P' (s_var s) _ _) W0 s eq_refl); [eapply rv_ok_mono; [exact R|exact VS]|apply VS; exact V3].
  - exact OD.
  - apply vec_128; try assumption. intros k K0. apply trunc_inr. exact W0.
  - apply C.
Qed.
Lemma gpe : forall vs, vs 3%nat = Some (V (TInt (bits (v_w32 i))) (rdx g (v_xn i) (bits (v_w32 i)))) -> w <= bits (v_w32 i) ->
  pv c vs (if bits (v_w32 i) =? w then vX 3 else eTrunc w (vX 3)) (V (TInt w) (trunc w (rdx g (v_xn i) (bits (v_w32 i))))).
Proof.
  intros vs E L. assert (I : inr (bits (v_w32 i)) (rdx g (v_xn i) (bits (v_w32 i)))) by (apply rdx_inr; pose proof (bits_pos (v_w32 i)); lia).
  destruct (Z.eqb_spec (bits (v_w32 i)) w) as [B|B].
  - rewrite B in *. rewrite trunc_small by exact I. apply pv_var. exact E.
  - eapply (proj1 (psh_trunc c vs (vX 3) Sc (bits (v_w32 i)) w (fun _ => rdx g (v_xn i) (bits (v_w32 i))) _ _)). Unshelve. + split; [apply pv_var; exact E|exact I]. + lia.
Qed.
Lemma ok_INS_GPR : okx (v_xn i) = true -> w <= bits (v_w32 i) -> 0 <= v_imm i < 128 / w -> goalo V_INS_GPR.
Proof.
  intros OX L R. pose proof full_n as [F1 F2]. unfold goalo, lift_int. cbv beta zeta. unfold InsertElem, ret. cbv iota. rewrite es_bits. lazy beta iota zeta delta [kint vres_int option_map].
  eapply (gp_ok [(2%nat, v_rd i, FacetOf (FullVa v) false)] _ _ _ w (128 / w) (Vc (128 / w))); [reflexivity|reflexivity|oks|exact OX|lia|lia|lia|reflexivity| |].
  - intros vs RV E. eapply insert_ok; [exact RV|apply gpe; [exact E|exact L]|apply trunc_inr; lia|exact R].
  - lne. destruct (_ =? _); [reflexivity|apply tr_id, lnI].
Qed.
Lemma mov_ok : forall e z, okx (v_xd i) = true -> (forall vs, rv_ok g [(4%nat, v_rn i, FacetOf (FullVa v) false)] vs -> pv c vs e (V (TInt (bits (v_w32 i))) (U (bits (v_w32 i)) z))) ->
  vok (Some (Some (rdv (4%nat, v_rn i, FacetOf (FullVa v) false) :: SetGp (v_xd i) e))) g (wrx g (v_xd i) (bits (v_w32 i)) z).
Proof.
  intros e z OX P. pose proof (bits_pos (v_w32 i)) as B. eexists. split; [reflexivity|]. intros p rt l' Q C. cbn [app rdv]. eapply K_let; [apply kvals_rd; exact ON|].
  eapply K_setgp; [|exact B| |exact OX|reflexivity|reflexivity|apply C].
  - intros s rt0 (_ & _ & VS & _). apply (P (s_var s)); [|reflexivity]. split; [apply VS; reflexivity|exact I].
  - apply trunc_inr. lia.
Qed.
Lemma ok_SMOV : okx (v_xd i) = true -> w <= bits (v_w32 i) -> 0 <= v_imm i < 128 / w -> goalo V_SMOV.
Proof.
  intros OX L R. unfold goalo, lift_int. cbv beta zeta. rewrite es_bits. lazy beta iota zeta delta [kint vres_int option_map]. apply mov_ok; [exact OX|].
  intros vs (RV & _). pose proof (elem_ok vs _ _ RV R) as E. destruct (Z.eqb_spec w (bits (v_w32 i))) as [Q|Q].
  - change U with trunc. rewrite <- Q, trunc_S, trunc_small by (apply lnI || lia). exact E.
  - rewrite S_small by apply lnI. refine (proj1 (psh_sext c vs _ Sc w (bits (v_w32 i)) (fun _ => Ln w (k_q g (v_rn i)) (v_imm i)) (conj E (lnI _ _)) ltac:(lia))).
Qed.
Lemma ok_UMOV : okx (v_xd i) = true -> w <= bits (v_w32 i) -> 0 <= v_imm i < 128 / w -> goalo V_UMOV.
Proof.
  intros OX L R. unfold goalo, lift_int. cbv beta zeta. rewrite es_bits. lazy beta iota zeta delta [kint vres_int option_map]. apply mov_ok; [exact OX|].
  intros vs (RV & _). pose proof (elem_ok vs _ _ RV R) as E. destruct (Z.eqb_spec w (bits (v_w32 i))) as [Q|Q].
  - change U with trunc. rewrite <- Q, trunc_small by apply lnI. exact E.
  - refine (proj1 (psh_extT c vs false _ Sc w (bits (v_w32 i)) (fun _ => Ln w (k_q g (v_rn i)) (v_imm i)) (conj E (lnI _ _)) ltac:(lia) _)). cbn; lia.
Qed.
End Elems.
Hypothesis SC0 : v_scalar i = false.
Let W := es_pos v.
Let N := el_pos v.
Lemma bitsel : forall a b m, inr w a -> inr w b -> inr w m -> Z.lxor a (Z.land (Z.lxor a b) m) = Z.lor (Z.land b m) (Z.land a (knot w m)).
Proof.
  intros a b m A B M. rewrite <- (xor_ones w m) by (assumption || lia). apply Z.bits_inj'. intros j J.
  rewrite Z.lxor_spec, Z.lor_spec, !Z.land_spec, !Z.lxor_spec. replace (2 ^ w - 1) with (Z.ones w) by (rewrite Z.ones_equiv; lia). rewrite Z.testbit_ones by lia.
  destruct (Z.ltb_spec j w).
  - replace (0 <=? j) with true by lia. destruct (Z.testbit a j), (Z.testbit b j), (Z.testbit m j); reflexivity.
  - rewrite (hi_bit w a j), (hi_bit w b j), (hi_bit w m j) by (assumption || lia). rewrite andb_false_r. reflexivity.
Qed.

Ltac inrs := repeat first [apply lnI|apply knot_inr|apply inr_and|apply inr_or|apply inr_xor|apply trunc_inr]; lia.
Lemma ok_AND : goalo V_AND. Proof. vec1. apply tr_id. inrs. Qed.
Lemma ok_BIC_IMM : goalo V_BIC_IMM. Proof. vec1. apply tr_id. inrs. Qed.
Lemma ok_BIC : goalo V_BIC. Proof. vec1. apply tr_id. inrs. Qed.
Lemma ok_EOR : goalo V_EOR. Proof. vec1. apply tr_id. inrs. Qed.
Lemma ok_NOT : goalo V_NOT. Proof. vec1. apply tr_id. inrs. Qed.
Lemma ok_ORN : goalo V_ORN. Proof. vec1. apply tr_id. inrs. Qed.
Lemma ok_ORR_IMM : goalo V_ORR_IMM. Proof. vec1. apply tr_id. inrs. Qed.
Lemma ok_ORR : goalo V_ORR. Proof. vec1. apply tr_id. inrs. Qed.
Lemma ok_BIT : goalo V_BIT. Proof. vec1. rewrite bitsel by inrs. apply tr_id. inrs. Qed.
Lemma ok_BSL : goalo V_BSL. Proof. vec1. rewrite bitsel by inrs. apply tr_id. inrs. Qed.
Lemma knot2 : forall m, knot w (knot w m) = m.
Proof. intro m. unfold knot. lia. Qed.
Lemma ok_BIF : goalo V_BIF.
Proof. vec1. rewrite bitsel by inrs. rewrite knot2. rewrite Z.lor_comm. apply tr_id. inrs. Qed.
Lemma zn : Z.of_nat (Z.to_nat w) = w. Proof. lia. Qed.
Ltac int1 := lazy beta iota zeta delta [goalo kint vres_int option_map lift_int]; nrm; eapply one_okv; [assumption|oks|oks|rvs; eapply psh_intr1; [pgo|lia|]|lne].
Lemma clz_ok : forall x, inr w x -> intr1_sem (Ctlz false) w x = IV (clz (Z.to_nat w) x) /\ inr w (clz (Z.to_nat w) x).
Proof.
  intros x I. split; [rewrite <- zn at 1; apply ctlz_ok; rewrite zn; exact I|]. pose proof (clz_range (Z.to_nat w) x). unfold inr.
  pose proof (Z.pow_gt_lin_r 2 w ltac:(lia) ltac:(lia)). lia.
Qed.
Lemma cpop_range : forall n x, 0 <= cpop n x <= Z.of_nat n.
Proof. induction n as [|n IH]; intros; cbn [cpop]; [lia|]. specialize (IH (x / 2)). lia. Qed.
Lemma cnt_ok : forall x, inr w x -> intr1_sem Ctpop w x = IV (cpop (Z.to_nat w) x) /\ inr w (cpop (Z.to_nat w) x).
Proof.
  intros x I. split; [cbn [intr1_sem]; unfold popcount; rewrite popcount_cpop; reflexivity|]. pose proof (cpop_range (Z.to_nat w) x). unfold inr.
  pose proof (Z.pow_gt_lin_r 2 w ltac:(lia) ltac:(lia)). lia.
Qed.
Lemma rb_ok : forall x, inr w x -> intr1_sem Bitreverse w x = IV (rbit (Z.to_nat w) x) /\ inr w (rbit (Z.to_nat w) x).
Proof.
  intros x I. split; [cbn [intr1_sem]; rewrite bitrev_ok by lia; rewrite zn, Z.sub_diag, Z.mul_1_r; reflexivity|].
  pose proof (rbit_inr (Z.to_nat w) x) as Q. rewrite zn in Q. exact Q.
Qed.
Lemma ok_CLZ : goalo V_CLZ. Proof. int1; [intros k K I; apply clz_ok; exact I|apply tr_id, clz_ok, lnI]. Qed.
Lemma ok_CNT : goalo V_CNT. Proof. int1; [intros k K I; apply cnt_ok; exact I|apply tr_id, cnt_ok, lnI]. Qed.
Lemma ok_RBIT : goalo V_RBIT. Proof. int1; [intros k K I; apply rb_ok; exact I|apply tr_id, rb_ok, lnI]. Qed.
Lemma ok_MAX : goalo V_MAX. Proof. vec1. reflexivity. Qed.
Lemma ok_MIN : goalo V_MIN. Proof. vec1. reflexivity. Qed.
Lemma ok_MUL : goalo V_MUL. Proof. vec1. rewrite tr_addr, Z.add_0_l. reflexivity. Qed.
Lemma ok_MLA : goalo V_MLA. Proof. vec1. rewrite tr_addr. reflexivity. Qed.
Lemma ok_MLS : goalo V_MLS. Proof. vec1. rewrite tr_subr. reflexivity. Qed.
Lemma abd_lane : forall (sg : bool) x y, inr w x -> inr w y -> let s z := if sg then S_ w z else z in
  trunc w (trunc (2 * w) (Z.abs (S_ (2 * w) (trunc (2 * w) (trunc (2 * w) (s x) - trunc (2 * w) (s y)))))) = trunc w (Z.abs (s x - s y)).
Proof.
  intros sg x y X Y s. rewrite trunc_trunc_le by lia. rewrite tr_sub, S_trunc by lia. rewrite S_id; [reflexivity|lia|].
  assert (P : 2 ^ w < 2 ^ (2 * w - 1)) by (apply Z.pow_lt_mono_r; lia). pose proof (S_range w x ltac:(lia)). pose proof (S_range w y ltac:(lia)).
  pose proof (Z.pow_le_mono_r 2 (w - 1) w ltac:(lia) ltac:(lia)). unfold s, inr in *. assert (2 ^ w = 2 * 2 ^ (w - 1)) by (rewrite <- Z.pow_succ_r by lia; f_equal; lia).
  destruct sg; lia.
Qed.
Lemma ok_ABD : goalo V_ABD. Proof. vec1. rewrite Z.add_0_l, trunc_trunc by lia. apply abd_lane; apply lnI. Qed.
Lemma ok_ABA : goalo V_ABA. Proof. vec1. rewrite (abd_lane (v_sgn i)) by apply lnI. apply tr_addr. Qed.
Lemma ok_HSUB : goalo V_HSUB.
Proof.
  vec1. rewrite trunc_trunc_le by lia. change (trunc w ((_ - _) / 2)) with (trunc w ((s_ (v_sgn i) w (Ln w (k_q g (v_rn i)) k) - s_ (v_sgn i) w (Ln w (k_q g (v_rm i)) k)) / 2 ^ 1)).
  apply (tr_shr w (2 * w)); try lia. rewrite tr_s, trunc_trunc by lia. apply tr_sub.
Qed.
Lemma ok_HADD : goalo V_HADD.
Proof.
  lazy beta iota zeta delta [goalo kint vres_int option_map lift_int]; nrm. destruct (v_round i); eapply one_okv; [assumption|oks|oks|rvs; pgo|lne|assumption|oks|oks|rvs; pgo|lne]; cbn beta;
    rewrite trunc_trunc_le by lia; match goal with |- _ = trunc ?a (?b / 2) => change (trunc a (b / 2)) with (trunc a (b / 2 ^ 1)) end;
    (apply (tr_shr w (2 * w)); try lia); rewrite tr_s, trunc_trunc by lia.
  - rewrite tr_addl, !tr_addr. rewrite <- Z.add_assoc. rewrite <- (tr_addr _ (if v_sgn i then _ else _) (trunc _ _ + _)), tr_add, tr_addr. reflexivity.
  - rewrite tr_add, Z.add_0_r. reflexivity.
Qed.
Lemma ok_UZP1 : goalo V_UZP1. Proof. vec1. rewrite Z.add_0_r. apply tr_id. destruct (_ <? _); apply lnI. Qed.
Lemma ok_UZP2 : goalo V_UZP2. Proof. vec1. apply tr_id. destruct (_ <? _); apply lnI. Qed.
Lemma ok_ADDP_VEC : goalo V_ADDP_VEC. Proof. vec1. rewrite Z.add_0_r. reflexivity. Qed.
Lemma ok_MAXP : goalo V_MAXP. Proof. vec1. rewrite Z.add_0_r. reflexivity. Qed.
Lemma ok_MINP : goalo V_MINP. Proof. vec1. rewrite Z.add_0_r. reflexivity. Qed.
Lemma ok_EXT : 0 <= v_imm i < elems v -> goalo V_EXT. Proof. intro R. vec1. rewrite Z.mul_1_l. apply tr_id. destruct (_ <? _); apply lnI. Qed.
Lemma ok_MUL_ELEM : 0 <= v_imm i < 128 / w -> goalo V_MUL_ELEM. Proof. intro R. vec1. rewrite tr_addr, Z.add_0_l. reflexivity. Qed.
Lemma ok_MLA_ELEM : 0 <= v_imm i < 128 / w -> goalo V_MLA_ELEM. Proof. intro R. vec1. rewrite tr_addr. reflexivity. Qed.
Lemma ok_MLS_ELEM : 0 <= v_imm i < 128 / w -> goalo V_MLS_ELEM. Proof. intro R. vec1. rewrite tr_subr. reflexivity. Qed.

(** Reversals and interleavings. *)
Lemma rev_mask : forall r, In (w, r) [(8, 2); (8, 4); (8, 8); (16, 2); (16, 4); (32, 2)] ->
  reverse r (elems v / r) = map (fun k => k - k mod r + (r - 1 - k mod r)) (zseq (elems v)) /\ elems v mod r = 0 /\ (r = 2 \/ r = 4 \/ r = 8).
Proof. intros r I. cbn [In] in I. destruct v; cbn [esize] in I; intuition (try congruence); match goal with X : _ = (_, r) |- _ => inversion X; subst r end; vm_compute; auto; congruence. Qed.
Lemma rev_ok : forall r, In (w, r) [(8, 2); (8, 4); (8, 8); (16, 2); (16, 4); (32, 2)] ->
  vok (ret [(0%nat, v_rn i, FacetOf v false)] (v_rd i) (eShuf (reverse r (elems v / r)) (vX 0) (eNull (TVec (elems v) (TInt w))))) g
    (wrq g (v_rd i) (out w NN (fun k => Ln w (k_q g (v_rn i)) (k - k mod r + (r - 1 - k mod r))))).
Proof.
  intros r I. destruct (rev_mask r I) as (M & D & R2). rewrite M. eapply one_okv; [assumption|oks|oks| |].
  - rvs. eapply (psh_shuf c vs); [reflexivity|eapply (rd_g vs 0%nat); [eassumption|reflexivity|reflexivity]|apply pvec_null; cbn; lia|cbn; lia|lia|].
    intros k K. cbn beta. assert (B : 0 <= k - k mod r + (r - 1 - k mod r) < elems v).
    { clear - K D R2. destruct R2 as [->|[->| ->]]; lia. }
    split; [lia|]. replace (_ <? elems v) with true by lia. reflexivity.
  - lne. apply tr_id, lnI.
Qed.
Lemma ok_REV16 : w = 8 -> goalo V_REV16.
Proof. intro E. lazy beta iota zeta delta [goalo kint vres_int option_map lift_int]; nrm. replace (16 / w) with 2 by (rewrite E; reflexivity). apply rev_ok. rewrite E. cbn [In]. auto. Qed.
Lemma ok_REV32 : w <= 16 -> goalo V_REV32.
Proof.
  intro E. lazy beta iota zeta delta [goalo kint vres_int option_map lift_int]; nrm.
  pose proof (rev_ok 4) as R4. pose proof (rev_ok 2) as R2. pose proof (ty_va v) as T. destruct v eqn:EV; cbn [esize] in E; try lia; rewrite ?T;
    ((apply R4; cbn; tauto) || (apply R2; cbn; tauto)).
Qed.
Lemma ok_REV64 : w <= 32 -> goalo V_REV64.
Proof.
  intro E. lazy beta iota zeta delta [goalo kint vres_int option_map lift_int]; nrm.
  pose proof (rev_ok 8) as R8. pose proof (rev_ok 4) as R4. pose proof (rev_ok 2) as R2. pose proof (ty_va v) as T. destruct v eqn:EV; cbn [esize] in E; try lia; rewrite ?T;
    ((apply R8; cbn; tauto) || (apply R4; cbn; tauto) || (apply R2; cbn; tauto)).
Qed.
Lemma zip_mask : 2 <= elems v -> zipmask_lower (elems v) = map (fun k => if Z.even k then k / 2 else elems v + k / 2) (zseq (elems v)) /\
  zipmask_upper (elems v) = map (fun k => if Z.even k then elems v / 2 + k / 2 else elems v + (elems v / 2 + k / 2)) (zseq (elems v)) /\ elems v mod 2 = 0.
Proof. intro L. destruct v; try (vm_compute; tauto). vm_compute in L. congruence. Qed.
Lemma ok_ZIP1 : 2 <= elems v -> goalo V_ZIP1.
Proof.
  intro L. destruct (zip_mask L) as (M & _ & D). lazy beta iota zeta delta [goalo kint vres_int option_map lift_int]; nrm. eapply one_okv; [assumption|oks|oks| |].
  - rvs. eapply (psh_shuf c vs); [exact M|eapply (rd_g vs 0%nat); [eassumption|eqs|eqs]|eapply (rd_g vs 1%nat); [eassumption|eqs|eqs]|cbn; lia|lia|].
    intros k K. split; [destruct (Z.even k); lia|reflexivity].
  - lne. destruct (Z.even k).
    + replace (k / 2 <? elems v) with true by lia. apply tr_id, lnI.
    + replace (elems v + k / 2 <? elems v) with false by lia. replace (elems v + k / 2 - elems v) with (k / 2) by lia. apply tr_id, lnI.
Qed.
Lemma ok_ZIP2 : 2 <= elems v -> goalo V_ZIP2.
Proof.
  intro L. destruct (zip_mask L) as (_ & M & D). lazy beta iota zeta delta [goalo kint vres_int option_map lift_int]; nrm. eapply one_okv; [assumption|oks|oks| |].
  - rvs. eapply (psh_shuf c vs); [exact M|eapply (rd_g vs 0%nat); [eassumption|eqs|eqs]|eapply (rd_g vs 1%nat); [eassumption|eqs|eqs]|cbn; lia|lia|].
    intros k K. split; [destruct (Z.even k); lia|reflexivity].
  - lne. destruct (Z.even k).
    + replace (elems v / 2 + k / 2 <? elems v) with true by lia. apply tr_id, lnI.
    + replace (elems v + (elems v / 2 + k / 2) <? elems v) with false by lia.
      replace (elems v + (elems v / 2 + k / 2) - elems v) with (elems v / 2 + k / 2) by lia. apply tr_id, lnI.
Qed.

(** ** Long, wide and narrowing forms *)
Section Long.
Hypothesis NE : w <> 64.
Variable dv : va.
Hypothesis DW : DoubleWidth v = Some dv.
Hypothesis DE : esize dv = 2 * w.
Hypothesis DN : elems dv = 64 / w.
Let HF := half_n v NE.
Ltac lng := lazy beta iota zeta delta [goalo kint vres_int option_map lift_int]; nrm; eapply long_ok; [assumption|oks|oks|rvs; destruct HF as (? & _); pgo|lne].
Lemma ok_ADDL : goalo V_ADDL. Proof. lng. apply tr_add. Qed.
Lemma ok_SUBL : goalo V_SUBL. Proof. lng. apply tr_sub. Qed.
Lemma ok_ADDW : goalo V_ADDW. Proof. lng. apply tr_addr. Qed.
Lemma ok_SUBW : goalo V_SUBW. Proof. lng. apply tr_subr. Qed.
Lemma ok_MULL : goalo V_MULL. Proof. lng. rewrite tr_mul, tr_addr. reflexivity. Qed.
Lemma ok_MLAL : goalo V_MLAL. Proof. lng. rewrite tr_mul, tr_addr. reflexivity. Qed.
Lemma ok_MLSL : goalo V_MLSL. Proof. lng. rewrite tr_mul, tr_subr. reflexivity. Qed.
Ltac lnge := lazy beta iota zeta delta [goalo kint vres_int option_map lift_int]; nrm; rewrite up_n by assumption; eapply long_ok; [assumption|oks|oks|rvs; destruct HF as (? & _); pgo|lne].
Lemma ok_MULL_ELEM : 0 <= v_imm i < 128 / w -> goalo V_MULL_ELEM. Proof. intro. lnge. rewrite tr_mul, tr_addr. reflexivity. Qed.
Lemma ok_MLAL_ELEM : 0 <= v_imm i < 128 / w -> goalo V_MLAL_ELEM. Proof. intro. lnge. rewrite tr_mul, tr_addr. reflexivity. Qed.
Lemma ok_MLSL_ELEM : 0 <= v_imm i < 128 / w -> goalo V_MLSL_ELEM. Proof. intro. lnge. rewrite tr_mul, tr_subr. reflexivity. Qed.
Lemma abdl_lane : forall (sg : bool) x y, inr w x -> inr w y -> let s z := if sg then S_ w z else z in
  S_ (2 * w) (trunc (2 * w) (trunc (2 * w) (s x) - trunc (2 * w) (s y))) = s x - s y.
Proof.
  intros sg x y X Y s. rewrite tr_sub, S_trunc by lia. rewrite S_id; [reflexivity|lia|].
  assert (P : 2 ^ w < 2 ^ (2 * w - 1)) by (apply Z.pow_lt_mono_r; lia). pose proof (S_range w x ltac:(lia)). pose proof (S_range w y ltac:(lia)).
  pose proof (Z.pow_le_mono_r 2 (w - 1) w ltac:(lia) ltac:(lia)). unfold s, inr in *. assert (2 ^ w = 2 * 2 ^ (w - 1)) by (rewrite <- Z.pow_succ_r by lia; f_equal; lia).
  destruct sg; lia.
Qed.
Lemma ok_ABDL : goalo V_ABDL. Proof. lng. rewrite (abdl_lane (v_sgn i)) by apply lnI. rewrite Z.add_0_l, trunc_trunc by lia. reflexivity. Qed.
Lemma ok_ABAL : goalo V_ABAL. Proof. lng. rewrite (abdl_lane (v_sgn i)) by apply lnI. apply tr_addr. Qed.
Lemma ok_SHLL : 0 <= v_imm i < 2 * w -> goalo V_SHLL.
Proof.
  intro R. lazy beta iota zeta delta [goalo kint vres_int option_map lift_int]; nrm; eapply long_ok; [assumption|oks|oks|rvs; destruct HF as (? & _)|lne].
  - eapply (psh_shlc c vs _ (Vc (64 / w))); [pgo|side|side].
  - apply tr_mull.
Qed.
Lemma ok_XTN : goalo V_XTN.
Proof.
  lazy beta iota zeta delta [goalo kint vres_int option_map lift_int]; nrm; eapply narrow_ok; [assumption|oks|oks|rvs|lne].
  - unfold Narrow. replace (2 * w / 2) with w by lia. eapply (psh_trunc c vs _ (Vc (64 / w)) (2 * w)); [pgo|lia].
  - reflexivity.
Qed.
Lemma ok_SHRN : v_round i = false -> 1 <= v_imm i <= w -> goalo V_SHRN.
Proof.
  intros RD R. lazy beta iota zeta delta [goalo kint vres_int option_map lift_int]; rewrite RD; nrm; eapply (narrow_ok _ _ _ (fun k => Ln (2 * w) (k_q g (v_rn i)) k / 2 ^ v_imm i)); [assumption|oks|oks|rvs; destruct HF as (? & _)|lne].
  - unfold Narrow. replace (2 * w / 2) with w by lia. eapply (psh_trunc c vs _ (Vc (64 / w)) (2 * w)); [|lia].
    eapply (psh_shrc c vs false _ (Vc (64 / w))); [pgo|side|side].
  - cbn beta iota. apply trunc_trunc_le. lia.
Qed.
End Long.

(** ** Pairwise long addition *)
Lemma shuf_half : forall vs a m t0 f w0, psh vs a (Vc (2 * m)) (TInt w0) f -> 0 <= w0 -> 0 <= m -> 0 <= t0 <= 1 ->
  psh vs (eShuf (linear m 2 t0) a (eNull (TVec (2 * m) (TInt w0)))) (Vc m) (TInt w0) (fun k => f (2 * k + t0)).
Proof.
  intros vs a m t0 f w0 A W0 M T. eapply (psh_shuf c vs _ (fun k => 2 * k + t0)); [reflexivity|exact A|apply pvec_null; exact W0|exact W0|exact M|].
  intros k K. split; [lia|]. replace (2 * k + t0 <? 2 * m) with true by lia. reflexivity.
Qed.
Definition PairVa (v : va) : va := match v with VA_8B => VA_4H | VA_16B => VA_8H | VA_4H => VA_2S | VA_8H => VA_4S | VA_2S => VA_1D | _ => VA_2D end.
Lemma pv_facts : w <> 64 -> esize (PairVa v) = 2 * w /\ elems v = 2 * elems (PairVa v) /\ elems v / 2 = elems (PairVa v) /\ 2 * w * elems (PairVa v) <= 128.
Proof. intro NE. destruct v; try (exfalso; apply NE; reflexivity); vm_compute; intuition congruence. Qed.
Lemma lift_adalp : forall o, o = V_ADALP \/ o = V_ADDLP -> w <> 64 -> lift_int i o =
  (let acc := match o with V_ADALP => true | _ => false end in
   let t2 := TypeOf (PairVa v) false in
   let part m := eExtT (v_sgn i) t2 (eShuf m (vX 0) (eNull (TypeOf v false))) in
   ret ((if acc then [(2%nat, v_rd i, FacetOf (PairVa v) false)] else []) ++ [(0%nat, v_rn i, FacetOf v false)]) (v_rd i)
       (eAdd (if acc then vX 2 else eNull t2) (eAdd (part (even (NumElem (PairVa v)))) (part (odd (NumElem (PairVa v))))))).
Proof. intros o O NE. unfold lift_int. destruct O; subst o; destruct v; try (exfalso; apply NE; reflexivity); reflexivity. Qed.
Lemma part_ok : forall vs m t0 q, w <> 64 -> vs 0%nat = Some (get_facet (Some q) (FacetOf v false)) -> 0 <= t0 <= 1 -> m = elems (PairVa v) ->
  psh vs (eExtT (v_sgn i) (TVec m (TInt (2 * w))) (eShuf (linear m 2 t0) (vX 0) (eNull (TVec (elems v) (TInt w))))) (Vc m) (TInt (2 * w))
    (fun k => trunc (2 * w) (if v_sgn i then S_ w (Ln w q (2 * k + t0)) else Ln w q (2 * k + t0))).
Proof.
  intros vs m t0 q NE E T ->. destruct (pv_facts NE) as (A & B & C0 & D). pose proof (el_pos (PairVa v)). rewrite B.
  eapply (psh_extT c vs (v_sgn i) _ (Vc (elems (PairVa v))) w (2 * w)); [eapply shuf_half; [|lia|lia|lia]|lia|cbn [scnt]; lia].
  eapply rd_g; [exact E|reflexivity|exact B].
Qed.
Lemma ok_ADALP : w <> 64 -> goalo V_ADALP.
Proof.
  intro NE. destruct (pv_facts NE) as (A & B & C0 & D). pose proof (el_pos (PairVa v)). unfold goalo. rewrite lift_adalp by auto.
  lazy beta iota zeta delta [kint vres_int option_map]. rewrite !ty_va, !ne_elems, A, C0.
  eapply (n_ok _ _ _ _ (2 * w) (elems (PairVa v)) (Vc (elems (PairVa v)))); [oks|oks|lia|lia|lia|reflexivity| |].
  - rvs. eapply psh_add; [|eapply psh_add; [eapply part_ok; [exact NE|eassumption|lia|exact eq_refl]|eapply part_ok; [exact NE|eassumption|lia|exact eq_refl]|lia]|lia].
    eapply rd_g; [eassumption|exact A|reflexivity].
  - lne. rewrite tr_add, tr_addr, Z.add_0_r. reflexivity.
Qed.
Lemma ok_ADDLP : w <> 64 -> goalo V_ADDLP.
Proof.
  intro NE. destruct (pv_facts NE) as (A & B & C0 & D). pose proof (el_pos (PairVa v)). unfold goalo. rewrite lift_adalp by auto.
  lazy beta iota zeta delta [kint vres_int option_map]. rewrite !ty_va, !ne_elems, A, C0.
  eapply (n_ok _ _ _ _ (2 * w) (elems (PairVa v)) (Vc (elems (PairVa v)))); [oks|oks|lia|lia|lia|reflexivity| |].
  - rvs. unfold even, odd. eapply psh_add; [apply (psh_null c vs (Vc _) (TInt (2 * w))); cbn [tsize]; lia|eapply psh_add; [eapply part_ok; [exact NE|eassumption|lia|exact eq_refl]|eapply part_ok; [exact NE|eassumption|lia|exact eq_refl]|lia]|lia].
  - lne. rewrite tr_add, tr_addr, Z.add_0_r, Z.add_0_l. reflexivity.
Qed.

Lemma ok_DUP_GPR : okx (v_xn i) = true -> w <= bits (v_w32 i) -> goalo V_DUP_GPR.
Proof.
  intros OX L. lazy beta iota zeta delta [goalo kint vres_int option_map lift_int]; nrm. rewrite SC0.
  eapply (gp_ok [] _ _ _ w (elems v) (Vc (elems v))); [reflexivity|reflexivity|reflexivity|exact OX|lia|lia|apply es_el|reflexivity| |].
  - intros vs _ E. unfold Dup. rewrite ne_elems. eapply pvec_splatv; [apply gpe; [exact E|exact L]|lia|apply trunc_inr; lia].
  - lne. reflexivity.
Qed.

(** ** Table lookup *)
Section Tbl.
Hypothesis W8 : w = 8.
Notation reg j := (k_q g ((v_rn i + j) mod 32)).
Notation tbl := (fun j => Ln 8 (reg (j / 16)) (j mod 16)).
Lemma cat_ok : forall vs n a b f f', pvec c vs a n (TInt 8) f -> pvec c vs b n (TInt 8) f' -> 0 <= n ->
  pvec c vs (eShuf (zseq (2 * n)) a b) (2 * n) (TInt 8) (fun k => if k <? n then f k else f' (k - n)).
Proof. intros vs n a b f f' A B N0. eapply (psh_shuf c vs _ (fun k => k)); [apply zseq_id|exact A|exact B|cbn; lia|lia|]. intros k K. split; [lia|reflexivity]. Qed.
Lemma okr : forall j, okq ((v_rn i + j) mod 32) = true.
Proof. intro j. unfold okq. lia. Qed.
Lemma tread : forall vs x j, vs x = Some (get_facet (Some (reg j)) V16I8) -> pvec c vs (vX x) 16 (TInt 8) (Ln 8 (reg j)).
Proof. intros vs x j E. apply (rd_g vs x (reg j) VA_16B 8 16 E eq_refl eq_refl). Qed.
Lemma tbl_core : forall (tbx : bool) vs t len F, 1 <= v_imm i <= 4 -> pvec c vs t len (TInt 8) F -> 16 * v_imm i <= len <= 64 -> (forall j, 0 <= j < 16 * v_imm i -> F j = tbl j) ->
  rv_ok g [(1%nat, v_rm i, FacetOf v false); (2%nat, v_rd i, FacetOf v false)] vs ->
  psh vs (fold_left (fun acc k => E2 (OInsert k) acc
      (eSel (eCmp UGE (E1 (OExtract k) (vX 1)) (cI 8 (v_imm i * 16))) (if tbx then E1 (OExtract k) (vX 2) else cI 8 0) (eExtractDyn len t (E1 (OExtract k) (vX 1)))))
      (zseq (elems v)) (vX 2)) (Vc (elems v)) (TInt 8)
    (fun k => let m := Ln 8 (k_q g (v_rm i)) k in if m <? 16 * v_imm i then tbl m else if tbx then Ln 8 (k_q g (v_rd i)) k else 0).
Proof.
  intros tbx vs t len F R T L FT (RM & RD & _). pose proof (rd_g vs 1%nat _ v 8 (elems v) RM W8 eq_refl) as PM. pose proof (rd_g vs 2%nat _ v 8 (elems v) RD W8 eq_refl) as PD.
  cbn [A64SimdVec.psh] in *. eapply inserts_ok; [exact PD|cbn; lia|lia|]. intros k K. cbv zeta.
  pose proof (pv_extract c vs k _ _ (TInt 8) _ PM ltac:(cbn; lia) K) as EM. pose proof (pv_extract c vs k _ _ (TInt 8) _ PD ltac:(cbn; lia) K) as ED.
  assert (MI : inr 8 (Ln 8 (k_q g (v_rm i)) k)) by (apply Ln_inr; lia). set (m := Ln 8 (k_q g (v_rm i)) k) in *.
  assert (DI : inr 8 (Ln 8 (k_q g (v_rd i)) k)) by (apply Ln_inr; lia).
  split.
  - assert (CE : pv c vs (eCmp UGE (E1 (OExtract k) (vX 1)) (cI 8 (v_imm i * 16))) (V (TInt 1) (b2z (v_imm i * 16 <=? m)))).
    { eapply pv_2; [exact EM|apply (pv_const c vs (TInt 8))|]. cbn [sem2]. unfold cmp_sem, same2. cbn [ty_of ty_eqb]. rewrite Z.eqb_refl. cbn [tsize].
      rewrite (trunc_small 8 (v_imm i * 16)) by (unfold inr; change (2 ^ 8) with 256; lia). reflexivity. }
    assert (XE : pv c vs (if tbx then E1 (OExtract k) (vX 2) else cI 8 0) (V (TInt 8) (if tbx then Ln 8 (k_q g (v_rd i)) k else 0))).
    { destruct tbx; [exact ED|]. apply (pv_const c vs (TInt 8) 0). }
    pose proof (dyn_ok c vs len t _ F m T EM MI ltac:(lia)) as DE. eapply pv_3; [exact CE|exact XE|exact DE|]. cbn [sem3]. unfold sel_sem. cbn [ty_of].
    destruct (Z.ltb_spec m (16 * v_imm i)) as [Q|Q].
    + replace (v_imm i * 16 <=? m) with false by lia. replace (m <? len) with true by lia. cbn [ty_of ty_eqb b2z]. rewrite Z.eqb_refl. rewrite FT by (unfold inr in MI; lia). reflexivity.
    + replace (v_imm i * 16 <=? m) with true by lia. destruct (m <? len); reflexivity.
  - cbn [tsize]. destruct (m <? 16 * v_imm i); [apply Ln_inr; lia|]. destruct tbx; [exact DI|unfold inr; change (2 ^ 8) with 256; lia].
Qed.
Lemma tbl_ok : forall tbx : bool, 1 <= v_imm i <= 4 ->
  vok (LiftTbl i tbx) g (wrq g (v_rd i) (out w NN (fun k => let m := Ln w (k_q g (v_rm i)) k in if m <? 16 * v_imm i then tbl m else if tbx then Ln w (k_q g (v_rd i)) k else 0))).
Proof.
  intros tbx R. unfold LiftTbl. cbv zeta. rewrite ne_elems, SC0, W8.
  assert (FIN : forall rs t len F, nodup3 (rs ++ [(1%nat, v_rm i, FacetOf v false); (2%nat, v_rd i, FacetOf v false)]) = true -> forallb (fun r => okq (snd (fst r))) rs = true ->
    (forall vs, rv_ok g (rs ++ [(1%nat, v_rm i, FacetOf v false); (2%nat, v_rd i, FacetOf v false)]) vs ->
       rv_ok g [(1%nat, v_rm i, FacetOf v false); (2%nat, v_rd i, FacetOf v false)] vs /\ pvec c vs t len (TInt 8) F) ->
    16 * v_imm i <= len <= 64 -> (forall j, 0 <= j < 16 * v_imm i -> F j = tbl j) ->
    vok (ret (rs ++ [(1%nat, v_rm i, FacetOf v false); (2%nat, v_rd i, FacetOf v false)]) (v_rd i)
      (fold_left (fun acc k => E2 (OInsert k) acc
        (eSel (eCmp UGE (E1 (OExtract k) (vX 1)) (cI 8 (v_imm i * 16))) (if tbx then E1 (OExtract k) (vX 2) else cI 8 0) (eExtractDyn len t (E1 (OExtract k) (vX 1)))))
        (zseq (elems v)) (vX 2))) g
      (wrq g (v_rd i) (out 8 (elems v) (fun k => let m := Ln 8 (k_q g (v_rm i)) k in if m <? 16 * v_imm i then tbl m else if tbx then Ln 8 (k_q g (v_rd i)) k else 0)))).
  { intros rs t len F ND OK P L FT. eapply (n_ok _ _ _ _ 8 (elems v) (Vc (elems v))); [exact ND| |lia|lia|rewrite <- W8; apply es_el|reflexivity| |].
    - rewrite forallb_app, OK. cbn [forallb snd fst]. rewrite OM, OD. reflexivity.
    - intros vs RV. destruct (P vs RV) as [A B]. eapply tbl_core; eassumption.
    - intros k K. cbv zeta. symmetry. apply trunc_small. destruct (_ <? _); [apply Ln_inr; lia|]. destruct tbx; [apply Ln_inr; lia|unfold inr; change (2 ^ 8) with 256; lia]. }
  destruct (Z.eqb_spec (v_imm i) 1) as [E|E1]; [|destruct (Z.eqb_spec (v_imm i) 2) as [E|E2]; [|destruct (Z.eqb_spec (v_imm i) 3) as [E|E3]; [|destruct (Z.eqb_spec (v_imm i) 4) as [E|E4]; [|lia]]]].
  - eapply (FIN [(5%nat, (v_rn i + 0) mod 32, V16I8)] (vX 5) 16); [reflexivity|cbn [forallb snd fst]; rewrite okr; reflexivity| |lia|].
    + rvs. split; [repeat split; assumption|apply (tread vs 5%nat 0); assumption].
    + intros j J. cbn beta. replace (j / 16) with 0 by lia. replace (j mod 16) with j by lia. reflexivity.
  - eapply (FIN [(5%nat, (v_rn i + 0) mod 32, V16I8); (6%nat, (v_rn i + 1) mod 32, V16I8)] (cat16 (vX 5) (vX 6)) 32); [reflexivity|cbn [forallb snd fst]; rewrite !okr; reflexivity| |lia|].
    + rvs. split; [repeat split; assumption|]. apply (cat_ok vs 16); [apply (tread vs 5%nat 0); assumption|apply (tread vs 6%nat 1); assumption|lia].
    + intros j J. cbn beta. destruct (Z.ltb_spec j 16).
      * replace (j / 16) with 0 by lia. replace (j mod 16) with j by lia. reflexivity.
      * replace (j / 16) with 1 by lia. replace (j mod 16) with (j - 16) by lia. reflexivity.
  - eapply (FIN [(5%nat, (v_rn i + 0) mod 32, V16I8); (7%nat, (v_rn i + 2) mod 32, V16I8); (6%nat, (v_rn i + 1) mod 32, V16I8)]
      (cat32 (cat16 (vX 5) (vX 6)) (cat16 (vX 7) (eNull (TypeOf VA_16B false)))) 64); [reflexivity|cbn [forallb snd fst]; rewrite !okr; reflexivity| |lia|].
    + rvs. split; [repeat split; assumption|].
      apply (cat_ok vs 32); [apply (cat_ok vs 16); [apply (tread vs 5%nat 0); assumption|apply (tread vs 6%nat 1); assumption|lia]
        |apply (cat_ok vs 16); [apply (tread vs 7%nat 2); assumption|apply (pvec_null c vs 16 (TInt 8)); cbn; lia|lia]|lia].
    + intros j J. cbn beta. destruct (Z.ltb_spec j 32); [destruct (Z.ltb_spec j 16)|].
      * replace (j / 16) with 0 by lia. replace (j mod 16) with j by lia. reflexivity.
      * replace (j / 16) with 1 by lia. replace (j mod 16) with (j - 16) by lia. reflexivity.
      * replace (j - 32 <? 16) with true by lia. replace (j / 16) with 2 by lia. replace (j mod 16) with (j - 32) by lia. reflexivity.
  - eapply (FIN [(5%nat, (v_rn i + 0) mod 32, V16I8); (7%nat, (v_rn i + 2) mod 32, V16I8); (8%nat, (v_rn i + 3) mod 32, V16I8); (6%nat, (v_rn i + 1) mod 32, V16I8)]
      (cat32 (cat16 (vX 5) (vX 6)) (cat16 (vX 7) (vX 8))) 64); [reflexivity|cbn [forallb snd fst]; rewrite !okr; reflexivity| |lia|].
    + rvs. split; [repeat split; assumption|].
      apply (cat_ok vs 32); [apply (cat_ok vs 16); [apply (tread vs 5%nat 0); assumption|apply (tread vs 6%nat 1); assumption|lia]
        |apply (cat_ok vs 16); [apply (tread vs 7%nat 2); assumption|apply (tread vs 8%nat 3); assumption|lia]|lia].
    + intros j J. cbn beta. destruct (Z.ltb_spec j 32); [destruct (Z.ltb_spec j 16)|destruct (Z.ltb_spec (j - 32) 16)].
      * replace (j / 16) with 0 by lia. replace (j mod 16) with j by lia. reflexivity.
      * replace (j / 16) with 1 by lia. replace (j mod 16) with (j - 16) by lia. reflexivity.
      * replace (j / 16) with 2 by lia. replace (j mod 16) with (j - 32) by lia. reflexivity.
      * replace (j / 16) with 3 by lia. replace (j mod 16) with (j - 32 - 16) by lia. reflexivity.
Qed.
Lemma ok_TBL : 1 <= v_imm i <= 4 -> goalo V_TBL. Proof. intro R. exact (tbl_ok false R). Qed.
Lemma ok_TBX : 1 <= v_imm i <= 4 -> goalo V_TBX. Proof. intro R. exact (tbl_ok true R). Qed.
End Tbl.
End Int.

Ltac fin := first [eassumption|lia|(apply negb_true_iff; assumption)].
Theorem int_ok : forall `{FpuOps} c i g o, c_arch c = AArch64 -> wf_int i o = true -> idef i g o ->
  exists g', kint i g o = Some g' /\ vok c (lift_int i o) g g'.
Proof.
  intros FP c i g o HA WF D.
  assert (G : kint i g o <> None -> goalo c i g o -> exists g', kint i g o = Some g' /\ vok c (lift_int i o) g g').
  { intros NN G. unfold goalo in G. destruct (kint i g o) as [g'|]; [exists g'; auto|contradiction]. }
  unfold wf_int in WF. cbv zeta in WF. apply andb_prop in WF. destruct WF as [WF XC].
  apply andb_prop in WF. destruct WF as [WF OXN]. apply andb_prop in WF. destruct WF as [WF OXD]. apply andb_prop in WF. destruct WF as [WF OM].
  apply andb_prop in WF. destruct WF as [OD ON].
  assert (S0 : negb (v_scalar i) = true -> v_scalar i = false) by (intro; destruct (v_scalar i); [discriminate|reflexivity]).
  assert (S64 : negb (v_scalar i) || (esize (v_va i) =? 64) = true -> v_scalar i = true -> esize (v_va i) = 64) by (intros Q1 Q2; rewrite Q2 in Q1; cbn in Q1; lia).
  assert (NE : negb (esize (v_va i) =? 64) = true -> esize (v_va i) <> 64) by lia.
  assert (ND : esize (v_va i) <> 64 -> exists dv, DoubleWidth (v_va i) = Some dv /\ esize dv = 2 * esize (v_va i) /\ elems dv = 64 / esize (v_va i)) by apply dw_facts.
  destruct o; try discriminate XC; (apply G; [discriminate|]); cbv beta iota in XC;
    repeat match goal with X : _ && _ = true |- _ => apply andb_prop in X; destruct X end;
    repeat match goal with X : negb (v_scalar i) = true |- _ => specialize (S0 X) | X : negb (v_scalar i) || _ = true |- _ => specialize (S64 X) | X : negb (esize (v_va i) =? 64) = true |- _ => specialize (NE X); destruct (ND NE) as (dv & DV1 & DV2 & DV3) end.
  - eapply ok_AND; fin.
  - eapply ok_BIC_IMM; fin.
  - eapply ok_BIC; fin.
  - eapply ok_BIF; fin.
  - eapply ok_BIT; fin.
  - eapply ok_BSL; fin.
  - eapply ok_CLZ; fin.
  - eapply ok_CNT; fin.
  - eapply ok_EOR; fin.
  - eapply ok_NOT; fin.
  - eapply ok_ORN; fin.
  - eapply ok_ORR_IMM; fin.
  - eapply ok_ORR; fin.
  - eapply ok_RBIT; fin.
  - eapply ok_REV16; fin.
  - eapply ok_REV32; fin.
  - eapply ok_REV64; fin.
  - eapply ok_SHL_IMM; fin.
  - eapply ok_SHL_REG; fin.
  - eapply ok_SHLL; fin.
  - eapply ok_SHR; fin.
  - eapply ok_SHRN; fin.
  - eapply ok_SRA; fin.
  - eapply ok_DUP_ELEM; fin.
  - eapply ok_DUP_GPR; fin.
  - eapply ok_EXT; fin.
  - eapply ok_INS_ELEM; fin.
  - eapply ok_INS_GPR; fin.
  - eapply ok_MOVI; fin.
  - eapply ok_SMOV; fin.
  - eapply ok_UMOV; fin.
  - eapply ok_TBL; fin.
  - eapply ok_TBX; fin.
  - eapply ok_UZP1; fin.
  - eapply ok_UZP2; fin.
  - eapply ok_XTN; fin.
  - eapply ok_ZIP1; fin.
  - eapply ok_ZIP2; fin.
  - eapply ok_CMEQ; fin.
  - eapply ok_CMEQ_Z; fin.
  - eapply ok_CMGE; fin.
  - eapply ok_CMGE_Z; fin.
  - eapply ok_CMGT; fin.
  - eapply ok_CMGT_Z; fin.
  - eapply ok_CMHI; fin.
  - eapply ok_CMHS; fin.
  - eapply ok_CMLE_Z; fin.
  - eapply ok_CMLT_Z; fin.
  - eapply ok_CMTST; fin.
  - eapply ok_ABS; fin.
  - eapply ok_ABD; fin.
  - eapply ok_ABA; fin.
  - eapply ok_ABDL; fin.
  - eapply ok_ABAL; fin.
  - eapply ok_NEG; fin.
  - eapply ok_MUL_ELEM; fin.
  - eapply ok_MUL; fin.
  - eapply ok_MULL_ELEM; fin.
  - eapply ok_MULL; fin.
  - eapply ok_ADD; fin.
  - eapply ok_ADDL; fin.
  - eapply ok_ADDW; fin.
  - eapply ok_HADD; fin.
  - eapply ok_SUB; fin.
  - eapply ok_SUBL; fin.
  - eapply ok_SUBW; fin.
  - eapply ok_HSUB; fin.
  - eapply ok_MAX; fin.
  - eapply ok_MIN; fin.
  - eapply ok_MLA_ELEM; fin.
  - eapply ok_MLA; fin.
  - eapply ok_MLS_ELEM; fin.
  - eapply ok_MLS; fin.
  - eapply ok_MLAL_ELEM; fin.
  - eapply ok_MLAL; fin.
  - eapply ok_MLSL_ELEM; fin.
  - eapply ok_MLSL; fin.
  - eapply ok_ADDP; fin.
  - eapply ok_ADDP_VEC; fin.
  - eapply ok_MAXP; fin.
  - eapply ok_MINP; fin.
  - eapply ok_ADDV; fin.
  - eapply ok_ADALP; fin.
  - eapply ok_ADDLP; fin.
  - eapply ok_MAXV; fin.
  - eapply ok_MINV; fin.
Qed.
