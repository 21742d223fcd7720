(** What the AArch64 floating-point lifter's code computes, and when that is what the
    specification demands. *)

From Coq Require Import ZArith Lia ZifyBool List Bool.
From Verif Require Import Bits IR Facet Dsl Rv64Spec Rv64Sim Rv64Arith Rv64FpSpec X86Spec X86Arith X86Sse X86SseSpec X86SseVec X86SseOps X86SseOps4.
From Verif Require Import A64Base A64Simd A64SimdFp A64 A64Spec A64Arith A64Sim A64Dp A64Mem A64Sys A64SimdSpec A64SimdFpSpec A64SimdVec A64SimdEval A64SimdInt.
Import A64Simd(fop, sop). Import A64Base(fsz).
Import ListNotations.
Open Scope Z_scope.
Ltac Zify.zify_post_hook ::= Z.div_mod_to_equations.

Notation fmt := Rv64FpSpec.fsz.
Lemma ts_fty : forall z, tsize (fty z) = fwid z.
Proof. intros []; reflexivity. Qed.
Lemma fwid_pos : forall z, 32 <= fwid z <= 64.
Proof. intros []; cbn; lia. Qed.
Lemma fp_fty : forall z, is_fp (fty z) = true.
Proof. intros []; reflexivity. Qed.
Lemma elt_sty : forall h t, (match t with TVec _ _ => False | _ => True end) -> elt (sty h t) = (scnt h, t).
Proof. intros [|n] t T; [destruct t; (reflexivity || contradiction)|reflexivity]. Qed.
Definition nvec (t : ty) : Prop := match t with TVec _ _ => False | _ => True end.
Lemma nvec_fty : forall z, nvec (fty z).
Proof. intros []; exact I. Qed.

(** ** Evaluation with partial lanes *)
Section Eval.
Context `{FpuOps}.
Variable c : cenv.
Variable vs : nat -> option rv.
Notation pv := (pv c vs).
Notation pvec := (pvec c vs).
Notation psh := (psh c vs).

(** If every lane of [F] is defined, [e] has those lanes. *)
Definition pso (e : dexp) (h : shp) (t : ty) (F : Z -> option Z) : Prop :=
  forall f, (forall k, 0 <= k < scnt h -> F k = Some (f k)) -> psh e h t f.
Lemma pso_in : forall e h t f, psh e h t f -> 0 <= scnt h -> pso e h t (fun k => Some (f k)).
Proof. intros e h t f P N f' E. eapply psh_ext; [exact P|exact N|]. intros k K. specialize (E k K). injection E as <-. reflexivity. Qed.
Lemma pso_ext : forall e h t F F', pso e h t F -> (forall k, 0 <= k < scnt h -> F k = F' k) -> pso e h t F'.
Proof. intros e h t F F' P E f X. apply P. intros k K. rewrite E by exact K. apply X. exact K. Qed.
Lemma ob_some : forall A B (x : option A) (f : A -> option B) y, ob x f = Some y -> exists a, x = Some a /\ f a = Some y.
Proof. intros A B [a|] f y E; [exists a; auto|discriminate]. Qed.
(** The lanes of an operand, from those of the result. *)
Definition dflt (F : Z -> option Z) (k : Z) : Z := match F k with Some x => x | None => 0 end.
Lemma dflt_ok : forall F (G : Z -> Z -> option Z) f k, ob (F k) (G k) = Some (f k) -> F k = Some (dflt F k) /\ G k (dflt F k) = Some (f k).
Proof. intros F G f k E. unfold dflt. destruct (F k); [auto|discriminate]. Qed.

Lemma psh_f1 : forall n a h s t f r, psh a h s f -> nvec s -> nvec t -> 0 <= tsize s -> 0 <= tsize t ->
  (forall k, 0 <= k < scnt h -> fpo n s t [f k] = Some (r k)) -> psh (eF1 n (sty h t) a) h t r.
Proof.
  intros n a [|m] s t f r A NS NT S T E; cbn [A64SimdVec.psh sty scnt] in *.
  - destruct A as [A IN]. specialize (E 0 ltac:(lia)). unfold fpo in E. destruct (fpu_op n s t [f 0]) as [q|] eqn:Q; [|discriminate]. cbn in E.
    apply (f_equal (fun o => match o with Some x => x | None => 0 end)) in E. cbn in E. rewrite <- E.
    split; [|apply trunc_inr; exact T]. eapply pv_1; [exact A|]. cbn [sem1]. unfold fp1_sem. cbn [ty_of].
    replace (elt s) with (1, s) by (destruct s; (reflexivity || contradiction)). replace (elt t) with (1, t) by (destruct t; (reflexivity || contradiction)).
    cbn [Z.eqb Pos.eqb].
    pose proof (vec1_ok 1 (tsize s) (tsize t) t (fun a => fires n s t [a]) (fun _ => f 0) (fun _ => trunc (tsize t) q) S T) as X.
    change (Z.to_nat 1) with 1%nat in X. cbn [vec] in X. change (Z.of_nat 0) with 0 in X. rewrite !Z.mul_0_r, Z.pow_0_r, !Z.mul_1_r, !Z.add_0_l in X.
    apply X; [intros; exact IN|]. intros k _. unfold fires. rewrite Q. reflexivity.
  - apply (pvec_fp1 c vs n a m s t f r A S T). intros k K. specialize (E k K). unfold fpo in E. unfold fires.
    destruct (fpu_op n s t [f k]); [|discriminate]. injection E as <-. reflexivity.
Qed.
Lemma psh_f2 : forall n a b h s t f g r, psh a h s f -> psh b h s g -> nvec s -> nvec t -> is_fp s = true -> 0 <= tsize s -> 0 <= tsize t ->
  (forall k, 0 <= k < scnt h -> fpo n s t [f k; g k] = Some (r k)) -> psh (eF2 n (sty h t) a b) h t r.
Proof.
  intros n a b [|m] s t f g r A B NS NT FP S T E; cbn [A64SimdVec.psh sty scnt] in *.
  - destruct A as [A IN], B as [B JN]. specialize (E 0 ltac:(lia)). unfold fpo in E. destruct (fpu_op n s t [f 0; g 0]) as [q|] eqn:Q; [|discriminate]. cbn in E.
    apply (f_equal (fun o => match o with Some x => x | None => 0 end)) in E. cbn in E. rewrite <- E.
    split; [|apply trunc_inr; exact T]. eapply pv_2; [exact A|exact B|]. cbn [sem2]. unfold fp2_sem. cbn [ty_of].
    replace (elt s) with (1, s) by (destruct s; (reflexivity || contradiction)). replace (elt t) with (1, t) by (destruct t; (reflexivity || contradiction)).
    rewrite ty_eqb_refl, FP. cbn [Z.eqb Pos.eqb andb].
    pose proof (vec2_ok 1 (tsize s) (tsize t) t (fun a b => fires n s t [a; b]) (fun _ => f 0) (fun _ => g 0) (fun _ => trunc (tsize t) q) S T) as X.
    change (Z.to_nat 1) with 1%nat in X. cbn [vec] in X. change (Z.of_nat 0) with 0 in X. rewrite !Z.mul_0_r, Z.pow_0_r, !Z.mul_1_r, !Z.add_0_l in X.
    apply X; [intros; exact IN|intros; exact JN|]. intros k _. unfold fires. rewrite Q. reflexivity.
  - apply (pvec_fp2 c vs n a b m s t f g r A B FP S T). intros k K. specialize (E k K). unfold fpo in E. unfold fires.
    destruct (fpu_op n s t [f k; g k]); [|discriminate]. injection E as <-. reflexivity.
Qed.
Lemma pso_f1 : forall n a h s t F, pso a h s F -> nvec s -> nvec t -> 0 <= tsize s -> 0 <= tsize t ->
  pso (eF1 n (sty h t) a) h t (fun k => ob (F k) (fun x => fpo n s t [x])).
Proof.
  intros n a h s t F A NS NT S T r E. refine (psh_f1 n a h s t (dflt F) r _ NS NT S T _).
  - apply (A (dflt F)). intros k K. apply (dflt_ok F (fun _ x => fpo n s t [x]) r k). apply E. exact K.
  - intros k K. apply (dflt_ok F (fun _ x => fpo n s t [x]) r k). apply E. exact K.
Qed.
Lemma pso_f2 : forall n a b h s t F G, pso a h s F -> pso b h s G -> nvec s -> nvec t -> is_fp s = true -> 0 <= tsize s -> 0 <= tsize t ->
  pso (eF2 n (sty h t) a b) h t (fun k => ob (F k) (fun x => ob (G k) (fun y => fpo n s t [x; y]))).
Proof.
  intros n a b h s t F G A B NS NT FP S T r E.
  assert (X : forall k, 0 <= k < scnt h -> F k = Some (dflt F k) /\ G k = Some (dflt G k) /\ fpo n s t [dflt F k; dflt G k] = Some (r k)).
  { intros k K. destruct (dflt_ok F (fun k x => ob (G k) (fun y => fpo n s t [x; y])) r k (E k K)) as [E1' E2'].
    destruct (dflt_ok G (fun k y => fpo n s t [dflt F k; y]) r k E2') as [E3' E4']. auto. }
  refine (psh_f2 n a b h s t (dflt F) (dflt G) r _ _ NS NT FP S T _).
  - apply (A (dflt F)). intros k K. apply X. exact K.
  - apply (B (dflt G)). intros k K. apply X. exact K.
  - intros k K. apply X. exact K.
Qed.
Lemma pso_sext : forall a h w w' F, pso a h (TInt w) F -> 0 <= w < w' -> 0 <= scnt h ->
  pso (eCast CSExt (sty h (TInt w')) a) h (TInt w') (fun k => ob (F k) (fun x => Some (sext w w' x))).
Proof.
  intros a h w w' F A W N r E. apply (psh_ext c vs _ _ _ (fun k => sext w w' (dflt F k))); [|exact N|].
  - apply psh_sext; [|exact W]. apply A. intros k K. apply (dflt_ok F (fun _ x => Some (sext w w' x)) r k). apply E. exact K.
  - intros k K. destruct (dflt_ok F (fun _ x => Some (sext w w' x)) r k (E k K)) as [_ X]. injection X as ->. reflexivity.
Qed.
Lemma pso_fcmp : forall p a b h s F G, pso a h s F -> pso b h s G -> nvec s -> is_fp s = true -> 0 <= tsize s ->
  pso (eFCmp p (sty h s) a b) h (TInt 1) (fun k => ob (F k) (fun x => ob (G k) (fun y => fpo (FCmp p) s (TInt 1) [x; y]))).
Proof.
  intros p a b h s F G A B NS FP S. unfold eFCmp. replace (cmp_ty (sty h s)) with (sty h (TInt 1)) by (destruct h, s; (reflexivity || contradiction)).
  apply (pso_f2 (FCmp p) a b h s (TInt 1) F G A B NS I FP S). cbn. lia.
Qed.
(** Constants in every lane. *)
Lemma psh_fcst : forall h t k, nvec t -> 0 <= tsize t -> 0 <= scnt h ->
  psh (match h with Sc => EConst t k | Vc n => E1 (OSplat n) (EConst t k) end) h t (fun _ => trunc (tsize t) k).
Proof.
  intros [|n] t k NV T N; cbn [A64SimdVec.psh scnt] in *.
  - split; [apply pv_const|apply trunc_inr; exact T].
  - split; [|intros; apply trunc_inr; exact T]. eapply pv_1; [apply pv_const|]. cbn [sem1 splat_sem]. destruct t; try contradiction; cbn [tsize] in *;
    rewrite unlanes_repeat by assumption; reflexivity.
Qed.
Lemma psh_fsplat : forall n t a x, nvec t -> 0 <= tsize t -> 0 <= n -> pv a (V t x) -> inr (tsize t) x -> psh (E1 (OSplat n) a) (Vc n) t (fun _ => x).
Proof.
  intros n t a x NV T N A IN; cbn [A64SimdVec.psh scnt] in *.
  split; [|intros; exact IN]. eapply pv_1; [exact A|]. cbn [sem1 splat_sem]. destruct t; try contradiction; cbn [tsize] in *;
    rewrite unlanes_repeat by assumption; reflexivity.
Qed.
(** Reductions. *)
Fixpoint ored (G : Z -> Z -> option Z) (e : Z -> Z) (n : nat) : option Z :=
  match n with O => Some (e 0) | S n' => ob (ored G e n') (fun a => G a (e (Z.of_nat n))) end.
Lemma freduce_ok : forall op a n t f, pvec a n t f -> nvec t -> is_fp t = true -> 1 <= n -> 0 <= tsize t ->
  pso (eReduce (eF2 op t) n a) Sc t (fun _ => ored (fun x y => fpo op t t [x; y]) f (Z.to_nat (n - 1))).
Proof.
  intros op a n t f A NV FP N T. unfold eReduce. rewrite (zseq1 vs (n - 1)) by lia.
  assert (Q : forall m, (m <= Z.to_nat (n - 1))%nat ->
    pso (fold_left (fun acc i => eF2 op t acc (E1 (OExtract i) a)) (map Z.of_nat (seq 1 m)) (E1 (OExtract 0) a)) Sc t (fun _ => ored (fun x y => fpo op t t [x; y]) f m)).
  { assert (EX : forall j, 0 <= j < n -> psh (E1 (OExtract j) a) Sc t (fun _ => f j)).
    { intros j J. cbn [A64SimdVec.psh]. split; [apply (pv_extract c vs j a n t); assumption|]. destruct A as [_ A]. apply A. lia. }
    induction m as [|m IH]; intros M.
    - cbn. apply (pso_in _ Sc t (fun _ => f 0)); [apply EX; lia|cbn; lia].
    - rewrite seq_S, map_app, fold_left_app. cbn [map fold_left ored]. change (1 + m)%nat with (S m).
      eapply pso_ext; [apply (pso_f2 op _ _ Sc t t _ _ (IH ltac:(lia)) (pso_in _ Sc t _ (EX (Z.of_nat (S m)) ltac:(lia)) ltac:(cbn; lia))); assumption|].
      intros k K. reflexivity. }
  apply Q. lia.
Qed.
End Eval.

Lemma ovec1 : forall w0 x (F : Z -> option Z), F 0 = Some x -> ovec w0 F 1 = Some x.
Proof. intros w0 x F E. cbn [ovec]. change (Z.of_nat 0) with 0. rewrite E, Z.mul_0_r, Z.pow_0_r. f_equal. lia. Qed.

(** ** The value the emitted code computes *)
Section Emit.
Context `{FpuOps}.
Section Vec.
Variable i : vinst.
Variable g : kst.
Variable z : fmt.
Let v := v_va i.
Let w := fwid z.
Let t := fty z.
Let N := if v_scalar i then 1 else elems v.
Let en := Ln w (k_q g (v_rn i)).
Let em := Ln w (k_q g (v_rm i)).
Let ed := Ln w (k_q g (v_rd i)).
Let elem := Ln w (k_q g (v_rm i)) (v_imm i).
Let cat (k : Z) : Z := if k <? elems v then en k else em (k - elems v).
Let op1 (f : fpname) (x : Z) : option Z := fpo f t t [x].
Let op2 (f : fpname) (x y : Z) : option Z := fpo f t t [x; y].
Let lanes (f : Z -> option Z) : option Z := ovec w f (Z.to_nat N).
Let scaled (op : fpname) (x : Z) : option Z := if 0 <? v_fbits i then op2 op x (U w (pow2_fp (fsz_of v) (v_fbits i))) else Some x.
Let cm (p : Z) (y : Z -> Z -> Z) : option Z :=
  if v_scalar i then ovec 64 (fun k => ob (fpo (FCmp p) TF64 (TInt 1) [Ln 64 (k_q g (v_rn i)) k; y 64 k]) (fun b => Some (sext 1 64 b))) 1
  else lanes (fun k => ob (fpo (FCmp p) t (TInt 1) [en k; y w k]) (fun b => Some (sext 1 w b))).
Let y2 (w k : Z) : Z := Ln w (k_q g (v_rm i)) k.
Let y0 (w k : Z) : Z := 0.
Let pair (f : fpname) : option Z := lanes (fun k => op2 f (cat (2 * k)) (cat (2 * k + 1))).
Let redu (f : fpname) : option Z := ored (op2 f) en (Z.to_nat (elems v - 1)).

Definition efp (o : fop) : option Z :=
  match o with
  | V_FCVT => ob (round_op (v_mode i)) (fun r =>
      lanes (fun k => ob (scaled FMul (en k)) (fun x => ob (op1 r x) (fun y => fpo (if v_sgn i then FToSI else FToUI) t (TInt w) [y]))))
  | V_CVTF => lanes (fun k => ob (fpo (if v_sgn i then FSIToFP else FUIToFP) (TInt w) t [en k]) (scaled FDiv))
  | V_FRINT | V_FRINTX => if v_fbits i =? 0 then ob (round_op (v_mode i)) (fun r => lanes (fun k => op1 r (en k))) else None
  | V_FCVTN =>
    match z with
    | FD => None
    | FS => let c k := fpo FTrunc TF64 TF32 [Ln 64 (k_q g (v_rn i)) k] in
            ovec 32 (fun k => if isq v then if k <? 2 then Some (ed k) else c (k - 2) else c k) (Z.to_nat (elems v))
    end
  | V_FCVTL =>
    match z with
    | FD => None
    | FS => ovec 64 (fun k => fpo FExt TF32 TF64 [en (if isq v then 2 + k else k)]) 2
    end
  | V_FCMEQ => cm P_OEQ y2 | V_FCMEQ_Z => cm P_OEQ y0
  | V_FCMGE => cm P_OGE y2 | V_FCMGE_Z => cm P_OGE y0
  | V_FCMGT => cm P_OGT y2 | V_FCMGT_Z => cm P_OGT y0
  | V_FCMLE_Z => cm P_OLE y0 | V_FCMLT_Z => cm P_OLT y0
  | V_FABS => lanes (fun k => op1 FFabs (en k))
  | V_FABD => lanes (fun k => ob (op2 FSub (en k) (em k)) (op1 FFabs))
  | V_FNEG => lanes (fun k => op1 FNeg (en k))
  | V_FSQRT => lanes (fun k => op1 FSqrt (en k))
  | V_FMUL_ELEM => lanes (fun k => if v_scalar i then op2 FMul (en k) elem else ob (op2 FMul (en k) elem) (op2 FAdd 0))
  | V_FMUL => lanes (fun k => op2 FMul (en k) (em k))
  | V_FDIV => lanes (fun k => op2 FDiv (en k) (em k))
  | V_FADD => lanes (fun k => op2 FAdd (en k) (em k))
  | V_FSUB => lanes (fun k => op2 FSub (en k) (em k))
  | V_FMAX | V_FMAXNM => lanes (fun k => op2 FMaxnum (en k) (em k))
  | V_FMIN | V_FMINNM => lanes (fun k => op2 FMinnum (en k) (em k))
  | V_FMLA_ELEM => lanes (fun k => ob (op2 FMul (en k) elem) (op2 FAdd (ed k)))
  | V_FMLA => lanes (fun k => ob (op2 FMul (en k) (em k)) (op2 FAdd (ed k)))
  | V_FMLS_ELEM => lanes (fun k => ob (op2 FMul (en k) elem) (op2 FSub (ed k)))
  | V_FMLS => lanes (fun k => ob (op2 FMul (en k) (em k)) (op2 FSub (ed k)))
  | V_FMOV => lanes (fun _ => Some (U w (v_imm i)))
  | V_FADDP => op2 FAdd (en 0) (en 1)
  | V_FADDP_VEC => pair FAdd
  | V_FMAXP_VEC | V_FMAXNMP_VEC => pair FMaxnum
  | V_FMINP_VEC | V_FMINNMP_VEC => pair FMinnum
  | V_FMAXV | V_FMAXNMV | V_FMAXP | V_FMAXNMP => redu FMaxnum
  | V_FMINV | V_FMINNMV | V_FMINP | V_FMINNMP => redu FMinnum
  end.
End Vec.

Variable c : cenv.
Hypothesis HA : c_arch c = AArch64.
Notation vok := (vok c).
Lemma lan_ok : forall rs rd e g h t w F v, nodup3 rs = true -> forallb (fun r => okq (snd (fst r))) rs = true -> okq rd = true ->
  tsize t = w -> 0 <= w -> 1 <= scnt h -> w * scnt h <= 128 ->
  (forall vs, rv_ok g rs vs -> pso c vs e h t F) -> ovec w F (Z.to_nat (scnt h)) = Some v -> vok (ret rs rd e) g (wrq g rd v).
Proof.
  intros rs rd e g h t w F v ND OK OD <- W N L P E. apply ovec_some in E. destruct E as [E ->].
  refine (ret_ok c HA rs rd e g h t _ _ ND OK OD W ltac:(lia) L _ (fun _ _ => eq_refl)).
  intros vs R. apply (P vs R). intros k K. apply E. lia.
Qed.
End Emit.

(** ** Registers as floating-point vectors and scalars *)
Lemma gf_vf : forall v z q, vfmt v = Some z -> get_facet (Some q) (FacetOf v true) = V (TVec (elems v) (fty z)) (trunc (fwid z * elems v) q).
Proof. intros [] [] q E; try discriminate; reflexivity. Qed.
Lemma gf_fullf : forall v z q, vfmt v = Some z -> get_facet (Some q) (FacetOf (FullVa v) true) = V (TVec (128 / fwid z) (fty z)) (trunc (fwid z * (128 / fwid z)) q).
Proof. intros [] [] q E; try discriminate; reflexivity. Qed.
Lemma gf_scf : forall v z q, vfmt v = Some z -> get_facet (Some q) (sc_facet (fsz_of v) true) = V (fty z) (trunc (fwid z * 1) q).
Proof. intros [] [] q E; try discriminate; reflexivity. Qed.
Lemma vf_es : forall v z, vfmt v = Some z -> esize v = fwid z.
Proof. intros [] [] E; try discriminate; reflexivity. Qed.
Lemma ty_vf : forall v z, vfmt v = Some z -> TypeOf v true = TVec (elems v) (fty z).
Proof. intros [] [] E; try discriminate; reflexivity. Qed.
Lemma ety_vf : forall v z, vfmt v = Some z -> ElemTypeOf v true = fty z.
Proof. intros [] [] E; try discriminate; reflexivity. Qed.
Lemma ft_scf : forall v z, vfmt v = Some z -> facet_type (sc_facet (fsz_of v) true) = fty z.
Proof. intros [] [] E; try discriminate; reflexivity. Qed.
Definition ffacet (i : vinst) : facet := if v_scalar i then sc_facet (fsz_of (v_va i)) true else FacetOf (v_va i) true.
Lemma gf_fsh : forall i z q, vfmt (v_va i) = Some z -> get_facet (Some q) (ffacet i) = V (sty (shape i) (fty z)) (trunc (fwid z * scnt (shape i)) q).
Proof. intros i z q E. unfold ffacet, shape. destruct (v_scalar i); [apply gf_scf; exact E|apply gf_vf; exact E]. Qed.
Lemma ft_fsh : forall i z, vfmt (v_va i) = Some z -> facet_type (ffacet i) = sty (shape i) (fty z).
Proof. intros i z E. unfold ffacet, shape. destruct (v_scalar i); [apply ft_scf; exact E|apply ty_vf; exact E]. Qed.
Lemma vf_fit : forall v z, vfmt v = Some z -> fwid z * elems v <= 128.
Proof. intros [] [] E; try discriminate; cbn; lia. Qed.

(** Operations with a scalar form in simd.cc. *)
Definition sclr_op (o : fop) : bool :=
  match o with
  | V_FCVT | V_CVTF | V_FCMEQ | V_FCMEQ_Z | V_FCMGE | V_FCMGE_Z | V_FCMGT | V_FCMGT_Z | V_FCMLE_Z | V_FCMLT_Z
  | V_FABD | V_FMUL_ELEM | V_FMLA_ELEM | V_FMLS_ELEM => true
  | _ => false
  end.
(** What the decoder guarantees. *)
Definition wf_fp (i : vinst) (o : fop) : bool :=
  okq (v_rd i) && okq (v_rn i) && okq (v_rm i) && (sclr_op o || negb (v_scalar i)) &&
  match o with
  | V_FMUL_ELEM | V_FMLA_ELEM | V_FMLS_ELEM => (0 <=? v_imm i) && (v_imm i <? 128 / esize (v_va i))
  | V_FADDP | V_FMAXP | V_FMINP | V_FMAXNMP | V_FMINNMP => elems (v_va i) =? 2
  | V_FMAXV | V_FMINV | V_FMAXNMV | V_FMINNMV => elems (v_va i) =? 4
  | _ => true
  end.

Section Vec.
Context `{FpuOps}.
Variable c : cenv.
Hypothesis HA : c_arch c = AArch64.
Variable i : vinst.
Variable g : kst.
Variable z : fmt.
Hypothesis VF : vfmt (v_va i) = Some z.
Notation v := (v_va i).
Notation vok := (vok c).
Notation pso := (pso c).
Hypothesis OD : okq (v_rd i) = true.
Hypothesis ON : okq (v_rn i) = true.
Hypothesis OM : okq (v_rm i) = true.

Lemma rd_fsh : forall vs x q, vs x = Some (get_facet (Some q) (ffacet i)) -> pso vs (vX x) (shape i) (fty z) (fun k => Some (Ln (fwid z) q k)).
Proof.
  intros vs x q E. rewrite (gf_fsh i z q VF) in E. rewrite <- (ts_fty z) in *. pose proof (sh_pos i). pose proof (fwid_pos z).
  apply (pso_in c vs (vX x)); [|lia]. apply psh_var; [exact E|rewrite ts_fty; lia|lia].
Qed.
Lemma rd_fv : forall vs x q, vs x = Some (get_facet (Some q) (FacetOf v true)) -> pso vs (vX x) (Vc (elems v)) (fty z) (fun k => Some (Ln (fwid z) q k)).
Proof.
  intros vs x q E. rewrite (gf_vf v z q VF) in E. rewrite <- (ts_fty z) in *. pose proof (el_pos v). pose proof (fwid_pos z).
  apply (pso_in c vs (vX x)); [|cbn [scnt]; lia]. apply (psh_var c vs x (Vc (elems v))); [exact E|rewrite ts_fty; lia|cbn [scnt]; lia].
Qed.
Lemma rd_fi : forall vs x q, vs x = Some (get_facet (Some q) (ifacet i)) -> pso vs (vX x) (shape i) (TInt (fwid z)) (fun k => Some (Ln (fwid z) q k)).
Proof.
  intros vs x q E. rewrite gf_sh, (vf_es _ _ VF) in E. pose proof (sh_pos i). pose proof (fwid_pos z).
  apply (pso_in c vs (vX x)); [|lia]. apply (psh_var c vs x (shape i) (TInt (fwid z))); [exact E|cbn [tsize]; lia|lia].
Qed.
Lemma rd_f64 : forall vs x q, vs x = Some (get_facet (Some q) F64) -> pso vs (vX x) Sc TF64 (fun k => Some (Ln 64 q k)).
Proof.
  intros vs x q E. apply (pso_in c vs (vX x)); [|cbn; lia]. apply (psh_var c vs x Sc TF64 q); [exact E|cbn; lia|cbn; lia].
Qed.
Lemma elem_f : forall vs q k, vs 4%nat = Some (get_facet (Some q) (FacetOf (FullVa v) true)) -> 0 <= k < 128 / fwid z ->
  pv c vs (E1 (OExtract k) (vX 4)) (V (fty z) (Ln (fwid z) q k)) /\ inr (tsize (fty z)) (Ln (fwid z) q k).
Proof.
  intros vs q k E K. rewrite (gf_fullf v z q VF) in E. pose proof (fwid_pos z). rewrite <- (ts_fty z) in *.
  assert (N0 : 0 <= 128 / tsize (fty z)) by lia.
  pose proof (psh_var c vs 4%nat (Vc (128 / tsize (fty z))) (fty z) q E ltac:(lia) N0) as P. cbn [psh] in P.
  split; [apply (pv_extract c vs k (vX 4) (128 / tsize (fty z)) (fty z)); [exact P|lia|exact K]|]. apply P. exact K.
Qed.
Lemma elem_sc : forall vs q k h, vs 4%nat = Some (get_facet (Some q) (FacetOf (FullVa v) true)) -> 0 <= k < 128 / fwid z -> h = Sc ->
  pso vs (E1 (OExtract k) (vX 4)) h (fty z) (fun _ => Some (Ln (fwid z) q k)).
Proof. intros vs q k h E K ->. apply (pso_in c vs _ Sc (fty z) (fun _ => Ln (fwid z) q k)); [|cbn; lia]. apply elem_f; assumption. Qed.
Lemma elem_sp : forall vs q k n, vs 4%nat = Some (get_facet (Some q) (FacetOf (FullVa v) true)) -> 0 <= k < 128 / fwid z -> 0 <= n ->
  pso vs (E1 (OSplat n) (E1 (OExtract k) (vX 4))) (Vc n) (fty z) (fun _ => Some (Ln (fwid z) q k)).
Proof.
  intros vs q k n E K N. destruct (elem_f vs q k E K) as [P I0]. apply (pso_in c vs _ (Vc n) (fty z) (fun _ => Ln (fwid z) q k)); [|exact N].
  apply psh_fsplat; try assumption; [apply nvec_fty|rewrite ts_fty; pose proof (fwid_pos z); lia].
Qed.
Lemma cst_f : forall vs k, pso vs (if v_scalar i then EConst (fty z) k else E1 (OSplat (elems v)) (EConst (fty z) k)) (shape i) (fty z) (fun _ => Some (U (fwid z) k)).
Proof.
  intros vs k. pose proof (sh_pos i). pose proof (psh_fcst c vs (shape i) (fty z) k (nvec_fty z)) as P. rewrite ts_fty in P. pose proof (fwid_pos z).
  specialize (P ltac:(lia) ltac:(lia)). apply (pso_in c vs _ _ _ (fun _ => U (fwid z) k)); [|lia]. unfold shape in *. destruct (v_scalar i); exact P.
Qed.
Lemma null_f : forall vs h t, 0 <= tsize t -> 0 <= scnt h -> pso vs (eNull (sty h t)) h t (fun _ => Some 0).
Proof. intros vs h t T N. apply (pso_in c vs _ h t (fun _ => 0)); [apply psh_null; exact T|exact N]. Qed.
Lemma lin_f : forall vs n a b t f g0 m t0, pso vs a (Vc n) t (fun k => Some (f k)) -> pso vs b (Vc n) t (fun k => Some (g0 k)) -> 0 <= tsize t -> 0 <= t0 -> 0 <= m ->
  m * (n - 1) + t0 < 2 * n -> 0 <= n ->
  pso vs (eShuf (linear n m t0) a b) (Vc n) t (fun k => Some (if m * k + t0 <? n then f (m * k + t0) else g0 (m * k + t0 - n))).
Proof.
  intros vs n a b t f g0 m t0 A B T T0 M L N0.
  apply (pso_in c vs _ (Vc n) t (fun k => if m * k + t0 <? n then f (m * k + t0) else g0 (m * k + t0 - n))); [|exact N0].
  apply (psh_shuf c vs _ (fun k => m * k + t0) n a b n t f g0); [reflexivity|apply A; reflexivity|apply B; reflexivity|exact T|exact N0|].
  intros k K. split; [nia|reflexivity].
Qed.

Ltac oks := cbn [app forallb snd fst nodup3 existsb rn3 Nat.eqb negb andb orb]; rewrite ?OD, ?ON, ?OM; reflexivity.
Ltac rvs := let R := fresh "R" in intros vs R; cbn [app rv_ok] in R; repeat match goal with X : (vs _ = _) /\ _ |- _ => destruct X end.
Ltac side := first [assumption|apply nvec_fty|apply fp_fty|exact I|reflexivity|match goal with X : v_scalar i = true |- shape i = Sc => unfold shape; rewrite X; reflexivity end|(cbn [tsize scnt] in *; rewrite ?ts_fty in *; pose proof (fwid_pos z); pose proof (el_pos v); pose proof (sh_pos i); lia)].
Ltac fgo :=
  match goal with
  | |- pso ?vs ?e ?h ?t _ =>
    lazymatch e with
    | vX _ => first [apply rd_fv; eassumption|apply rd_fsh; eassumption|apply rd_fi; eassumption|apply rd_f64; eassumption]
    | eF1 ?n _ ?a => first [refine (pso_f1 c vs n a h (fty z) t _ _ _ _ _ _); [fgo|side..]|refine (pso_f1 c vs n a h (TInt (fwid z)) t _ _ _ _ _ _); [fgo|side..]]
    | eF2 ?n _ ?a ?b => refine (pso_f2 c vs n a b h (fty z) t _ _ _ _ _ _ _ _ _); [fgo|fgo|side..]
    | eFCmp ?p _ ?a ?b => first [refine (pso_fcmp c vs p a b h (fty z) _ _ _ _ _ _ _); [fgo|fgo|side..]|refine (pso_fcmp c vs p a b h TF64 _ _ _ _ _ _ _); [fgo|fgo|side..]]
    | eCast CSExt _ ?a => match t with TInt ?w' => refine (pso_sext c vs a h 1 w' _ _ _ _); [fgo|side..] end
    | eShuf (linear ?n ?m ?t0) ?a ?b => refine (lin_f vs n a b t _ _ m t0 _ _ _ _ _ _ _); [fgo|fgo|side..]
    | eNull _ => refine (null_f vs h t _ _); side
    | E1 (OSplat _) (E1 (OExtract _) _) => apply elem_sp; [eassumption|side..]
    | E1 (OExtract _) _ => apply elem_sc; [eassumption|side..]
    | if v_scalar i then _ else _ => apply cst_f
    end
  end.
Ltac fin := eapply pso_ext; [fgo|intros k K; cbn beta iota zeta delta [ob]; rewrite ?Z.add_0_r; try reflexivity].

Definition vgoal (o : fop) : Prop := forall x, efp i g z o = Some x -> vok (lift_fp i o) g (wrq g (v_rd i) x).
Ltac nrm := lazy beta iota zeta delta [lift_fp LiftFcvt LiftCvtf LiftFrint LiftFcm LiftFThree LiftFMulAcc LiftFMulElem LiftFPair LiftFRed even odd] in *;
  change (if v_scalar i then sc_facet (fsz_of (v_va i)) true else FacetOf (v_va i) true) with (ffacet i);
  change (if v_scalar i then sc_facet (fsz_of (v_va i)) false else FacetOf (v_va i) false) with (ifacet i);
  change (facet_type (FacetOf v true)) with (TypeOf v true);
  change (facet_type (FacetOf v false)) with (TypeOf v false);
  rewrite ?(ft_fsh i z VF), ?(ft_scf _ _ VF), ?(ty_vf _ _ VF), ?(ety_vf _ _ VF), ?ty_va, ?(vf_es _ _ VF), ?ne_elems.
(** A vector operation. *)
Lemma vec_ok : forall rs e F x, v_scalar i = false -> nodup3 rs = true -> forallb (fun r => okq (snd (fst r))) rs = true ->
  ovec (fwid z) F (Z.to_nat (if v_scalar i then 1 else elems v)) = Some x -> (forall vs, rv_ok g rs vs -> pso vs e (Vc (elems v)) (fty z) F) ->
  vok (ret rs (v_rd i) e) g (wrq g (v_rd i) x).
Proof.
  intros rs e F x SC ND OK E P. rewrite SC in E. pose proof (fwid_pos z). pose proof (el_pos v). pose proof (vf_fit _ _ VF).
  refine (lan_ok c HA rs (v_rd i) e g (Vc (elems v)) (fty z) (fwid z) F x ND OK OD (ts_fty z) _ _ _ P E); cbn [scnt]; lia.
Qed.
(** An operation with a scalar form. *)
Lemma sh_ok : forall rs e t F x, tsize t = fwid z -> nodup3 rs = true -> forallb (fun r => okq (snd (fst r))) rs = true ->
  ovec (fwid z) F (Z.to_nat (if v_scalar i then 1 else elems v)) = Some x -> (forall vs, rv_ok g rs vs -> pso vs e (shape i) t F) ->
  vok (ret rs (v_rd i) e) g (wrq g (v_rd i) x).
Proof.
  intros rs e t F x T ND OK E P. pose proof (fwid_pos z). pose proof (vf_fit _ _ VF). pose proof (sh_pos i).
  refine (lan_ok c HA rs (v_rd i) e g (shape i) t (fwid z) F x ND OK OD T _ _ _ P _); try lia.
  - unfold shape in *. destruct (v_scalar i); cbn [scnt] in *; lia.
  - unfold shape. destruct (v_scalar i); exact E.
Qed.
Ltac vgo := nrm; eapply vec_ok; [assumption|oks|oks|eassumption|rvs; fin].

Lemma e_vec : v_scalar i = false -> forall o, In o [V_FABS; V_FNEG; V_FSQRT; V_FMUL; V_FDIV; V_FADD; V_FSUB; V_FMAX; V_FMIN; V_FMAXNM; V_FMINNM; V_FMLA; V_FMLS;
  V_FADDP_VEC; V_FMAXP_VEC; V_FMINP_VEC; V_FMAXNMP_VEC; V_FMINNMP_VEC] -> vgoal o.
Proof.
  intros SC o I0 x E. unfold efp in E. cbn [In] in I0. repeat (destruct I0 as [<-|I0]; [vgo|]); contradiction.
Qed.
Lemma e_rint : v_scalar i = false -> forall o, In o [V_FRINT; V_FRINTX] -> vgoal o.
Proof.
  intros SC o I0 x E. assert (E' : efp i g z V_FRINT = Some x) by (destruct I0 as [<-|[<-|[]]]; exact E). clear E. unfold efp in E'.
  destruct (v_fbits i =? 0) eqn:B; [|discriminate]. destruct (round_op (v_mode i)) as [r|] eqn:R; [|discriminate]. cbn [ob] in E'.
  assert (G : vok (LiftFrint i) g (wrq g (v_rd i) x)); [|destruct I0 as [<-|[<-|[]]]; exact G].
  nrm. rewrite B, R. cbn [negb]. eapply vec_ok; [assumption|oks|oks|eassumption|rvs; fin].
Qed.
Lemma e_fcvt : vgoal V_FCVT.
Proof.
  intros x E. unfold efp in E. destruct (round_op (v_mode i)) as [r|] eqn:R; [|discriminate]. cbn [ob] in E. nrm. rewrite R.
  replace (if v_scalar i then TInt (match fsz_of v with FSZ_D => 64 | _ => 32 end) else facet_type (ifacet i)) with (sty (shape i) (TInt (fwid z))).
  - eapply (sh_ok _ _ (TInt (fwid z))); [reflexivity|oks|oks|exact E|]. rvs. destruct (0 <? v_fbits i); fin. destruct (fpo FMul _ _ _); reflexivity.
  - rewrite ft_sh, (vf_es _ _ VF). unfold shape. destruct (v_scalar i); [|reflexivity]. destruct v, z; try discriminate; reflexivity.
Qed.
Lemma e_cvtf : vgoal V_CVTF.
Proof.
  intros x E. unfold efp in E. nrm. eapply (sh_ok _ _ (fty z)); [apply ts_fty|oks|oks|exact E|]. rvs. destruct (0 <? v_fbits i) eqn:B; fin.
  destruct (fpo _ _ _ _); reflexivity.
Qed.
Lemma e_fabd : vgoal V_FABD.
Proof. intros x E. unfold efp in E. nrm. eapply (sh_ok _ _ (fty z)); [apply ts_fty|oks|oks|exact E|]. rvs. fin. Qed.
Lemma e_elem : 0 <= v_imm i < 128 / fwid z -> forall o, In o [V_FMUL_ELEM; V_FMLA_ELEM; V_FMLS_ELEM] -> vgoal o.
Proof.
  intros IM o I0 x E. unfold efp in E.
  cbn [In] in I0. do 3 (destruct I0 as [<-|I0]; [nrm; destruct (v_scalar i) eqn:SC;
   [eapply (sh_ok _ _ (fty z)); [apply ts_fty|oks|oks|rewrite SC; exact E|rvs; fin]|eapply vec_ok; [exact SC|oks|oks|rewrite SC; exact E|rvs; fin]]|]); contradiction.
Qed.

Lemma e_fcm : forall o, In o [V_FCMEQ; V_FCMEQ_Z; V_FCMGE; V_FCMGE_Z; V_FCMGT; V_FCMGT_Z; V_FCMLE_Z; V_FCMLT_Z] -> vgoal o.
Proof.
  intros o I0 x E. pose proof (fwid_pos z). pose proof (el_pos v). pose proof (vf_fit _ _ VF).
  cbn [In] in I0. do 8 (destruct I0 as [<-|I0]; [unfold efp in E; nrm; destruct (v_scalar i) eqn:SC; nrm;
  [refine (lan_ok c HA _ (v_rd i) _ g Sc (TInt 64) 64 _ x _ _ OD eq_refl ltac:(lia) ltac:(cbn; lia) ltac:(cbn; lia) _ E); [oks|oks|rvs; fin]
  |refine (lan_ok c HA _ (v_rd i) _ g (Vc (elems v)) (TInt (fwid z)) (fwid z) _ x _ _ OD eq_refl ltac:(lia) ltac:(cbn; lia) ltac:(cbn [scnt]; lia) _ E); [oks|oks|rvs; fin]]|]); contradiction.
Qed.
Lemma e_fmov : v_scalar i = false -> vgoal V_FMOV.
Proof.
  intros SC x E. unfold efp in E. nrm. eapply vec_ok; [exact SC|oks|oks|exact E|]. rvs.
  pose proof (cst_f vs (v_imm i)) as P. unfold shape in P. rewrite SC in P. exact P.
Qed.
Lemma ex_f : forall vs q k, vs 0%nat = Some (get_facet (Some q) (FacetOf v true)) -> 0 <= k < elems v ->
  pso vs (E1 (OExtract k) (vX 0)) Sc (fty z) (fun _ => Some (Ln (fwid z) q k)).
Proof.
  intros vs q k E K. pose proof (fwid_pos z). assert (P : pvec c vs (vX 0) (elems v) (fty z) (Ln (fwid z) q)) by (apply (rd_fv vs 0%nat q E); reflexivity).
  apply (pso_in c vs _ Sc (fty z) (fun _ => Ln (fwid z) q k)); [|cbn; lia]. split; [apply (pv_extract c vs k (vX 0) (elems v) (fty z) _ P); [rewrite ts_fty; lia|exact K]|].
  apply P. exact K.
Qed.
Lemma red_ok : forall rs e F x, nodup3 rs = true -> forallb (fun r => okq (snd (fst r))) rs = true ->
  F 0 = Some x -> (forall vs, rv_ok g rs vs -> pso vs e Sc (fty z) F) -> vok (ret rs (v_rd i) e) g (wrq g (v_rd i) x).
Proof.
  intros rs e F x ND OK E P. pose proof (fwid_pos z).
  refine (lan_ok c HA rs (v_rd i) e g Sc (fty z) (fwid z) F x ND OK OD (ts_fty z) ltac:(lia) ltac:(cbn; lia) ltac:(cbn [scnt]; lia) P _). apply (ovec1 (fwid z) x F E).
Qed.
Lemma e_faddp : elems v = 2 -> vgoal V_FADDP.
Proof.
  intros N x E. unfold efp in E. nrm. eapply (red_ok _ _ (fun _ => fpo FAdd (fty z) (fty z) [Ln (fwid z) (k_q g (v_rn i)) 0; Ln (fwid z) (k_q g (v_rn i)) 1])); [oks|oks|exact E|]. rvs.
  pose proof (fwid_pos z). eapply pso_ext; [eapply (pso_f2 c vs FAdd _ _ Sc (fty z) (fty z)); [apply ex_f; [eassumption|lia]|apply ex_f; [eassumption|lia]|side..]|]. intros; reflexivity.
Qed.
Lemma red1 : forall op x, ored (fun x y => fpo op (fty z) (fty z) [x; y]) (Ln (fwid z) (k_q g (v_rn i))) (Z.to_nat (elems v - 1)) = Some x ->
  vok (LiftFRed i op) g (wrq g (v_rd i) x).
Proof.
  intros op x E. pose proof (fwid_pos z). pose proof (el_pos v). nrm.
  eapply (red_ok _ _ (fun _ => ored (fun x y => fpo op (fty z) (fty z) [x; y]) (Ln (fwid z) (k_q g (v_rn i))) (Z.to_nat (elems v - 1)))); [oks|oks|exact E|].
  rvs. apply freduce_ok; [apply (rd_fv vs 0%nat (k_q g (v_rn i))); [assumption|reflexivity]|side..].
Qed.
Lemma e_red : forall o, In o [V_FMAXV; V_FMINV; V_FMAXNMV; V_FMINNMV; V_FMAXP; V_FMINP; V_FMAXNMP; V_FMINNMP] -> vgoal o.
Proof.
  intros o I0 x E. cbn [In] in I0. do 8 (destruct I0 as [<-|I0]; [apply red1; exact E|]). contradiction.
Qed.
Lemma e_fcvtl : vgoal V_FCVTL.
Proof.
  intros x E. unfold efp in E. destruct z eqn:Z0; [|discriminate]. rewrite <- Z0 in *.
  assert (G : vok (ret [(0%nat, v_rn i, FacetOf v true)] (v_rd i) (eF1 FExt (TVec 2 TF64) (Halve v true (vX 0)))) g (wrq g (v_rd i) x)); [|lazy beta iota zeta delta [lift_fp]; rewrite Z0 in VF; destruct v; try discriminate; exact G].
  refine (lan_ok c HA _ (v_rd i) _ g (Vc 2) TF64 64 _ x _ _ OD eq_refl ltac:(lia) ltac:(cbn; lia) ltac:(cbn; lia) _ E); [oks|oks|]. rvs.
  eapply pso_ext; [eapply (pso_f1 c vs FExt _ (Vc 2) TF32 TF64); [|side..]|].
  - unfold Halve. eapply (pso_in c vs _ (Vc 2) TF32); [|cbn; lia].
    apply (psh_shuf c vs _ (fun k => if isq v then 2 + k else k) 2 (vX 0) _ (elems v) TF32 (Ln 32 (k_q g (v_rn i))) (fun _ => 0)).
    + destruct v; try discriminate; rewrite Z0 in VF; try discriminate; reflexivity.
    + change TF32 with (fty FS). rewrite <- Z0. change 32 with (fwid FS). rewrite <- Z0. apply (rd_fv vs 0%nat (k_q g (v_rn i))); [assumption|reflexivity].
    + rewrite (ty_vf _ _ VF), Z0. apply pvec_null. cbn. lia.
    + cbn. lia.
    + lia.
    + intros k K. assert ((if isq v then 2 + k else k) < elems v) by (clear - K VF Z0; rewrite Z0 in VF; destruct v; try discriminate; change (elems VA_2S) with 2; change (elems VA_4S) with 4; cbn [isq]; cbn [scnt] in K; lia).
      split; [destruct (isq v); lia|]. replace ((if isq v then 2 + k else k) <? elems v) with true by lia. reflexivity.
  - intros k K. cbn [ob]. rewrite Z0. reflexivity.
Qed.
Lemma e_fcvtn : vgoal V_FCVTN.
Proof.
  intros x E. unfold efp in E. destruct z eqn:Z0; [|discriminate]. rewrite <- Z0 in *.
  assert (G : vok (InsertInHalf v true [(0%nat, v_rn i, V2F64)] (v_rd i) (eF1 FTrunc (TVec 2 TF32) (vX 0))) g (wrq g (v_rd i) x)); [|lazy beta iota zeta delta [lift_fp]; rewrite Z0 in VF; destruct v; try discriminate; exact G].
  set (cv := fun k => fpo FTrunc TF64 TF32 [Ln 64 (k_q g (v_rn i)) k]) in *.
  assert (P : forall vs, vs 0%nat = Some (get_facet (Some (k_q g (v_rn i))) V2F64) -> pso vs (eF1 FTrunc (TVec 2 TF32) (vX 0)) (Vc 2) TF32 cv).
  { intros vs R. refine (pso_ext c vs _ (Vc 2) TF32 _ cv (pso_f1 c vs FTrunc (vX 0) (Vc 2) TF64 TF32 (fun k => Some (Ln 64 (k_q g (v_rn i)) k)) _ _ _ _ _) _); [|side..].
    apply (pso_in c vs (vX 0) (Vc 2) TF64); [|cbn; lia]. apply (psh_var c vs 0%nat (Vc 2) TF64); [exact R|cbn; lia|cbn; lia]. }
  assert (Q : elems v = if isq v then 4 else 2) by (clear - VF Z0; rewrite Z0 in VF; destruct v; try discriminate; reflexivity).
  unfold InsertInHalf. replace (upper_half v) with (isq v) by (clear - VF Z0; rewrite Z0 in VF; destruct v; try discriminate; reflexivity).
  destruct (isq v) eqn:SQ; cbn [negb].
  - rewrite ne_elems, (ety_vf _ _ VF), Q in *. rewrite Z0 in *. cbn [fty fwid] in *.
    refine (lan_ok c HA _ (v_rd i) _ g (Vc 4) TF32 32 _ x _ _ OD eq_refl ltac:(lia) ltac:(cbn; lia) ltac:(cbn; lia) _ E); [oks|oks|]. rvs.
    intros f FE.
    assert (PN : pvec c vs (eF1 FTrunc (TVec 2 TF32) (vX 0)) 2 TF32 (fun k => f (k + 2))).
    { apply (P vs); [assumption|]. intros k K. cbn [scnt] in *. specialize (FE (k + 2) ltac:(lia)). replace (k + 2 <? 2) with false in FE by lia. replace (k + 2 - 2) with k in FE by lia. exact FE. }
    assert (PE : pvec c vs (eShuf (zseq 4) (eF1 FTrunc (TVec 2 TF32) (vX 0)) (eNull (TVec (4 / 2) TF32))) 4 TF32 (fun k => if k <? 2 then f (k + 2) else 0)).
    { eapply (psh_shuf c vs _ (fun k => k)); [apply zseq_id|exact PN|apply pvec_null; cbn; lia|cbn; lia|lia|]. intros k K. split; [lia|]. reflexivity. }
    assert (PD : pvec c vs (vX 2) 4 TF32 (Ln 32 (k_q g (v_rd i)))).
    { assert (R2 : vs 2%nat = Some (get_facet (Some (k_q g (v_rd i))) (FacetOf v true))) by assumption. rewrite (gf_vf v FS _ VF), Q in R2.
      apply (psh_var c vs 2%nat (Vc 4) TF32); [exact R2|cbn; lia|cbn; lia]. }
    cbn [psh]. eapply (psh_shuf c vs _ (fun k => if k <? 4 / 2 then k else k + 4 / 2)); [reflexivity|exact PD|exact PE|cbn; lia|lia|].
    intros k K. change (4 / 2) with 2. specialize (FE k K). destruct (Z.ltb_spec k 2).
    + split; [lia|]. replace (k <? 4) with true by lia. injection FE as <-. reflexivity.
    + split; [lia|]. replace (k + 2 <? 4) with false by lia. replace (k + 2 - 4 <? 2) with true by lia. f_equal. lia.
  - rewrite Q in E. refine (lan_ok c HA _ (v_rd i) _ g (Vc 2) TF32 32 _ x _ _ OD eq_refl ltac:(lia) ltac:(cbn; lia) ltac:(cbn; lia) _ E); [oks|oks|]. rvs.
    apply P. assumption.
Qed.
End Vec.

(** Every floating-point SIMD instruction's code writes [efp] to Vd. *)
Theorem fp_emit : forall `{FpuOps} c i g z o x, c_arch c = AArch64 -> vfmt (v_va i) = Some z -> wf_fp i o = true -> efp i g z o = Some x ->
  vok c (lift_fp i o) g (wrq g (v_rd i) x).
Proof.
  intros F c i g z o x HA VF WF E. unfold wf_fp in WF. do 4 (apply andb_true_iff in WF as [WF ?]).
  assert (SC : sclr_op o = false -> v_scalar i = false) by (intros SO; destruct (sclr_op o), (v_scalar i); (discriminate || reflexivity)).
  destruct o; try (pose proof (SC eq_refl)); revert x E;
    first [eapply e_vec; try eassumption; cbn [In]; tauto|eapply e_rint; try eassumption; cbn [In]; tauto|eapply e_fcvt; eassumption|eapply e_cvtf; eassumption
          |eapply e_fabd; eassumption|eapply e_fcvtl; eassumption|eapply e_fcvtn; eassumption|eapply e_fmov; eassumption|eapply e_fcm; try eassumption; cbn [In]; tauto
          |eapply e_red; try eassumption; cbn [In]; tauto|eapply e_faddp; try eassumption; lia
          |eapply e_elem; try eassumption; [rewrite <- (vf_es _ _ VF); lia|cbn [In]; tauto]].
Qed.

(** ** Scalar forms *)
Definition wf_sfp (i : vinst) (o : sop) : bool :=
  okq (v_rd i) && okq (v_rn i) && okq (v_rm i) && okq (v_ra i) && okx (v_xd i) && okx (v_xn i).
Section Scalar.
Context `{FpuOps}.
Section Val.
Variable i : vinst.
Variable g : kst.
Variable z : fmt.
Let w := fwid z.
Let t := fty z.
Let x := U w (k_q g (v_rn i)).
Let y := U w (k_q g (v_rm i)).
Let a := U w (k_q g (v_ra i)).
Let gw := bits (v_w32 i).
Let op1 (f : fpname) (x : Z) : option Z := fpo f t t [x].
Let op2 (f : fpname) (x y : Z) : option Z := fpo f t t [x; y].
Let scaled (op : fpname) (x : Z) : option Z := if 0 <? v_fbits i then op2 op x (U w (pow2_fp (v_fsz i) (v_fbits i))) else Some x.
Let wr (r : option Z) : option kst := ob r (fun r => Some (wrq g (v_rd i) r)).
Let fma (neg_mult sub : bool) : option kst :=
  wr (ob (ob (op2 FMul x y) (fun m => if neg_mult then op1 FNeg m else Some m)) (fun m => op2 (if sub then FSub else FAdd) m a)).
Let cmp (y : Z) : option kst :=
  ob (fpo (FCmp P_UNO) t (TInt 1) [x; y]) (fun un => ob (fpo (FCmp P_OEQ) t (TInt 1) [x; y]) (fun eq => ob (fpo (FCmp P_OLT) t (TInt 1) [x; y]) (fun lt =>
    Some (wrf g (nzcv (lt =? 1) (eq =? 1) (negb (lt =? 1)) (un =? 1)))))).
Definition esfp (o : sop) : option kst :=
  match o with
  | S_FCVT_GPR => ob (round_op (v_mode i)) (fun r => ob (scaled FMul x) (fun x => ob (op1 r x) (fun y =>
      ob (fpo (if v_sgn i then FToSI else FToUI) t (TInt gw) [y]) (fun n => Some (wrx g (v_xd i) gw n)))))
  | S_CVTF => wr (ob (fpo (if v_sgn i then FSIToFP else FUIToFP) (TInt gw) t [rdx g (v_xn i) gw]) (scaled FDiv))
  | S_FRINT | S_FRINTX => if v_fbits i =? 0 then ob (round_op (v_mode i)) (fun r => wr (op1 r x)) else None
  | S_FCVT_S => match z with FD => wr (fpo FTrunc TF64 TF32 [x]) | FS => wr (Some x) end
  | S_FCVT_D => match z with FS => wr (fpo FExt TF32 TF64 [x]) | FD => wr (Some x) end
  | S_FABS => wr (op1 FFabs x)
  | S_FNEG => wr (op1 FNeg x)
  | S_FSQRT => wr (op1 FSqrt x)
  | S_FMUL => wr (op2 FMul x y) | S_FDIV => wr (op2 FDiv x y) | S_FADD => wr (op2 FAdd x y) | S_FSUB => wr (op2 FSub x y)
  | S_FMAX | S_FMAXNM => wr (op2 FMaxnum x y)
  | S_FMIN | S_FMINNM => wr (op2 FMinnum x y)
  | S_FNMUL => wr (ob (op2 FMul x y) (op1 FNeg))
  | S_FMADD => fma false false
  | S_FMSUB => fma true false
  | S_FNMADD => fma true true
  | S_FNMSUB => fma false true
  | S_FCMP => cmp y
  | S_FCMP_Z => cmp 0
  | S_FMOV_IMM => wr (Some (U w (v_imm i)))
  end.
End Val.

Variable c : cenv.
Hypothesis HA : c_arch c = AArch64.
Variable i : vinst.
Variable g : kst.
Variable z : fmt.
Hypothesis SF0 : sfmt (v_fsz i) = Some z.
Notation vok := (vok c).
Notation pso := (pso c).
Hypothesis OD : okq (v_rd i) = true.
Hypothesis ON : okq (v_rn i) = true.
Hypothesis OM : okq (v_rm i) = true.
Hypothesis OA : okq (v_ra i) = true.
Hypothesis OXD : okx (v_xd i) = true.
Hypothesis OXN : okx (v_xn i) = true.

Lemma gf_sf : forall q, get_facet (Some q) (sc_facet (v_fsz i) true) = V (fty z) (U (fwid z) q).
Proof. intro q. destruct (v_fsz i), z; try discriminate; reflexivity. Qed.
Lemma ft_sf : facet_type (sc_facet (v_fsz i) true) = fty z.
Proof. destruct (v_fsz i), z; try discriminate; reflexivity. Qed.
Lemma rd_sf : forall vs k q, vs k = Some (get_facet (Some q) (sc_facet (v_fsz i) true)) -> pso vs (vX k) Sc (fty z) (fun _ => Some (U (fwid z) q)).
Proof.
  intros vs k q E. rewrite gf_sf in E. pose proof (fwid_pos z). apply (pso_in c vs _ Sc (fty z) (fun _ => U (fwid z) q)); [|cbn; lia].
  split; [apply pv_var; exact E|rewrite ts_fty; apply trunc_inr; lia].
Qed.
Lemma sc_ok : forall rs e t F r, nodup3 rs = true -> forallb (fun r => okq (snd (fst r))) rs = true -> 0 <= tsize t <= 128 ->
  (forall vs, rv_ok g rs vs -> pso vs e Sc t (fun _ => F)) -> ob F (fun r => Some (wrq g (v_rd i) r)) = Some r -> vok (ret rs (v_rd i) e) g r.
Proof.
  intros rs e t F r ND OK T P E. destruct F as [x|]; [|discriminate]. cbn [ob] in E. injection E as <-.
  refine (lan_ok c HA rs (v_rd i) e g Sc t (tsize t) (fun _ => Some x) x ND OK OD eq_refl ltac:(lia) ltac:(cbn; lia) ltac:(cbn [scnt]; lia) P _).
  apply (ovec1 (tsize t) x (fun _ => Some x) eq_refl).
Qed.
Lemma cst_sf : forall vs k, pso vs (EConst (fty z) k) Sc (fty z) (fun _ => Some (U (fwid z) k)).
Proof.
  intros vs k. pose proof (fwid_pos z). pose proof (psh_fcst c vs Sc (fty z) k (nvec_fty z)) as P. rewrite ts_fty in P.
  apply (pso_in c vs _ Sc (fty z) (fun _ => U (fwid z) k)); [apply P; cbn; lia|cbn; lia].
Qed.
Ltac oks := cbn [app forallb snd fst nodup3 existsb rn3 Nat.eqb negb andb orb]; rewrite ?OD, ?ON, ?OM, ?OA; reflexivity.
Ltac rvs := let R := fresh "R" in intros vs R; cbn [app rv_ok] in R; repeat match goal with X : (vs _ = _) /\ _ |- _ => destruct X end.
Ltac side := first [assumption|apply nvec_fty|apply fp_fty|exact I|reflexivity|(cbn [tsize scnt] in *; rewrite ?ts_fty in *; pose proof (fwid_pos z); pose proof (bits_pos (v_w32 i)); lia)].
Ltac fgo :=
  match goal with
  | |- pso ?vs ?e ?h ?t _ =>
    lazymatch e with
    | vX _ => apply rd_sf; eassumption
    | eF1 ?n _ ?a => refine (pso_f1 c vs n a h (fty z) t _ _ _ _ _ _); [fgo|side..]
    | eF2 ?n _ ?a ?b => refine (pso_f2 c vs n a b h (fty z) t _ _ _ _ _ _ _ _ _); [fgo|fgo|side..]
    | EConst _ _ => apply cst_sf
    end
  end.
Ltac fin := eapply pso_ext; [fgo|intros k K; cbn beta iota zeta delta [ob]; first [reflexivity|destruct (fpo FMul _ _ _); reflexivity|idtac]].
Ltac nrm := lazy beta iota zeta delta [lift_sfp LiftFMA]; rewrite ?ft_sf.
Definition sgoal (o : sop) : Prop := forall r, esfp i g z o = Some r -> vok (lift_sfp i o) g r.

Lemma s_simple : forall o, In o [S_FABS; S_FNEG; S_FSQRT; S_FMUL; S_FDIV; S_FADD; S_FSUB; S_FMAX; S_FMAXNM; S_FMIN; S_FMINNM; S_FNMUL; S_FMADD; S_FMSUB; S_FNMADD; S_FNMSUB; S_FMOV_IMM] -> sgoal o.
Proof.
  intros o I0 r E. cbn [In] in I0.
  repeat (destruct I0 as [<-|I0]; [unfold esfp in E; nrm; eapply (sc_ok _ _ (fty z)); [oks|oks|side| |exact E]; rvs; fin|]). contradiction.
Qed.

Lemma s_rint : forall o, In o [S_FRINT; S_FRINTX] -> sgoal o.
Proof.
  intros o I0 r E. assert (E' : esfp i g z S_FRINT = Some r) by (destruct I0 as [<-|[<-|[]]]; exact E). clear E. unfold esfp in E'.
  destruct (v_fbits i =? 0) eqn:B; [|discriminate]. destruct (round_op (v_mode i)) as [m|] eqn:R; [|discriminate]. cbn [ob] in E'.
  assert (G : vok (lift_sfp i S_FRINT) g r); [|destruct I0 as [<-|[<-|[]]]; exact G].
  nrm. rewrite B, R. cbn [negb].
  assert (G : vok (ret [(0%nat, v_rn i, sc_facet (v_fsz i) true)] (v_rd i) (eF1 m (fty z) (vX 0))) g r).
  { eapply (sc_ok _ _ (fty z)); [oks|oks|side| |exact E']; rvs; fin. }
  destruct (v_fsz i); try discriminate SF0; exact G.
Qed.
Lemma s_cast : forall o, In o [S_FCVT_S; S_FCVT_D] -> sgoal o.
Proof.
  intros o I0 r E. assert (NH : forall A (a b : A), (match v_fsz i with FSZ_H => a | _ => b end) = b) by (intros; destruct (v_fsz i); try discriminate SF0; reflexivity).
  assert (FS' : forall a, FPCast (v_fsz i) FSZ_S a = match z with FD => eF1 FTrunc TF32 a | FS => a end) by (intros; destruct (v_fsz i), z; try discriminate SF0; reflexivity).
  assert (FD' : forall a, FPCast (v_fsz i) FSZ_D a = match z with FS => eF1 FExt TF64 a | FD => a end) by (intros; destruct (v_fsz i), z; try discriminate SF0; reflexivity).
  destruct I0 as [<-|[<-|[]]]; unfold esfp in E; nrm; rewrite NH, ?FS', ?FD'; clear NH FS' FD'; destruct z eqn:Z0; cbv iota; rewrite <- Z0 in E, SF0.
  - eapply (sc_ok _ _ (fty z)); [oks|oks|side| |exact E]; rvs; apply rd_sf; eassumption.
  - eapply (sc_ok _ _ TF32); [oks|oks|cbn; lia| |exact E]; rvs. refine (pso_ext c vs _ Sc TF32 _ _ (pso_f1 c vs FTrunc (vX 0) Sc TF64 TF32 _ _ I I _ _) _); [|cbn; lia|cbn; lia|].
    + replace TF64 with (fty z) by (rewrite Z0; reflexivity). apply rd_sf. eassumption.
    + intros; reflexivity.
  - eapply (sc_ok _ _ TF64); [oks|oks|cbn; lia| |exact E]; rvs. refine (pso_ext c vs _ Sc TF64 _ _ (pso_f1 c vs FExt (vX 0) Sc TF32 TF64 _ _ I I _ _) _); [|cbn; lia|cbn; lia|].
    + replace TF32 with (fty z) by (rewrite Z0; reflexivity). apply rd_sf. eassumption.
    + intros; reflexivity.
  - eapply (sc_ok _ _ (fty z)); [oks|oks|side| |exact E]; rvs; apply rd_sf; eassumption.
Qed.
Lemma s_tofix : sgoal S_FCVT_GPR.
Proof.
  intros r E. unfold esfp in E. destruct (round_op (v_mode i)) as [m|] eqn:R; [|discriminate]. cbn [ob] in E.
  apply ob_some in E. destruct E as (x1 & E1' & E). apply ob_some in E. destruct E as (x2 & E2' & E). apply ob_some in E. destruct E as (n & E3' & E). injection E as <-.
  nrm. rewrite R. pose proof (bits_pos (v_w32 i)) as B. eexists. split; [reflexivity|]. intros p rt l' Q C. rewrite <- app_assoc.
  cbn [map app rdv]. eapply K_let; [apply kvals_rd; exact ON|].
  assert (P : forall vs, rv_ok g [(0%nat, v_rn i, sc_facet (v_fsz i) true)] vs -> pv c vs
     (eF1 (if v_sgn i then FToSI else FToUI) (TInt (bits (v_w32 i))) (eF1 m (fty z) (if 0 <? v_fbits i then eF2 FMul (fty z) (vX 0) (EConst (fty z) (pow2_fp (v_fsz i) (v_fbits i))) else vX 0)))
     (V (TInt (bits (v_w32 i))) n)).
  { rvs. refine (proj1 (_ : psh c vs _ Sc (TInt (bits (v_w32 i))) (fun _ => n))).
    assert (PS : pso vs (if 0 <? v_fbits i then eF2 FMul (fty z) (vX 0) (EConst (fty z) (pow2_fp (v_fsz i) (v_fbits i))) else vX 0) Sc (fty z) (fun _ => Some x1)).
    { destruct (0 <? v_fbits i); [|injection E1' as <-; fgo]. eapply pso_ext; [fgo|]. intros; exact E1'. }
    eapply (pso_f1 c vs _ _ Sc (fty z) (TInt (bits (v_w32 i)))); [|side..|].
    - eapply (pso_f1 c vs _ _ Sc (fty z) (fty z) _ PS); side.
    - intros k K. cbn [ob]. rewrite E2'. cbn [ob]. exact E3'. }
  assert (NI : inr (bits (v_w32 i)) n).
  { unfold fpo in E3'. destruct (fpu_op _ _ _ [x2]); [|discriminate]. injection E3' as <-. apply trunc_inr. lia. }
  eapply K_setgp; [|exact B|exact NI|exact OXD|reflexivity|symmetry; apply trunc_small; exact NI|apply C].
  intros s rt0 (_ & _ & VS & _). apply (P (Dsl.s_var s)); [|reflexivity]. split; [apply VS; reflexivity|exact I].
Qed.

Lemma s_cvtf : sgoal S_CVTF.
Proof.
  intros r E. unfold esfp in E. apply ob_some in E. destruct E as (x & E & X). injection X as <-. apply ob_some in E. destruct E as (n & EN & E).
  nrm. pose proof (bits_pos (v_w32 i)) as B. pose proof (fwid_pos z) as W. eexists. split; [reflexivity|]. intros p rt l' Q C. unfold emit. cbn [map app].
  eapply K_let; [apply kv_vals, kv_gp; exact OXN|].
  assert (P : forall vs, vs 3%nat = Some (V (TInt (bits (v_w32 i))) (rdx g (v_xn i) (bits (v_w32 i)))) -> psh c vs
     (if 0 <? v_fbits i then eF2 FDiv (fty z) (eF1 (if v_sgn i then FSIToFP else FUIToFP) (fty z) (vX 3)) (EConst (fty z) (pow2_fp (v_fsz i) (v_fbits i))) else eF1 (if v_sgn i then FSIToFP else FUIToFP) (fty z) (vX 3))
     Sc (fty z) (fun _ => x)).
  { intros vs R3.
    assert (P3 : pso vs (vX 3) Sc (TInt (bits (v_w32 i))) (fun _ => Some (rdx g (v_xn i) (bits (v_w32 i))))).
    { apply (pso_in c vs _ Sc (TInt (bits (v_w32 i))) (fun _ => rdx g (v_xn i) (bits (v_w32 i)))); [|cbn; lia]. split; [apply pv_var; exact R3|apply rdx_inr; lia]. }
    assert (PN : pso vs (eF1 (if v_sgn i then FSIToFP else FUIToFP) (fty z) (vX 3)) Sc (fty z) (fun _ => Some n)).
    { eapply pso_ext; [eapply (pso_f1 c vs _ _ Sc (TInt (bits (v_w32 i))) (fty z) _ P3); side|]. intros; exact EN. }
    assert (PX : pso vs (if 0 <? v_fbits i then eF2 FDiv (fty z) (eF1 (if v_sgn i then FSIToFP else FUIToFP) (fty z) (vX 3)) (EConst (fty z) (pow2_fp (v_fsz i) (v_fbits i))) else eF1 (if v_sgn i then FSIToFP else FUIToFP) (fty z) (vX 3))
       Sc (fty z) (fun _ => Some x)); [|apply PX; reflexivity].
    destruct (0 <? v_fbits i).
    - eapply pso_ext; [eapply (pso_f2 c vs _ _ _ Sc (fty z) (fty z) _ _ PN (cst_sf vs _)); side|]. intros; exact E.
    - injection E as <-. exact PN. }
  eapply (K_setq c HA) with (v := x).
  - intros s rt0 (_ & _ & VS & _). apply (proj1 (P (Dsl.s_var s) ltac:(apply VS; reflexivity)) s eq_refl).
  - exact OD.
  - pose proof (psh_inr c _ _ _ _ _ 0 (P (upd_var vs0 3 (V (TInt (bits (v_w32 i))) (rdx g (v_xn i) (bits (v_w32 i))))) eq_refl) ltac:(cbn; lia)) as IN. rewrite ts_fty in IN.
    unfold inr in *. pose proof (Z.pow_le_mono_r 2 (fwid z) 128 ltac:(lia) ltac:(lia)). lia.
  - apply C.
Qed.
Lemma kle_nzcv' : forall g0 n z0 c0 v0, kle (setf (setf (setf (setf g0 fN n) fZ z0) fC c0) fV v0) (wrf g0 (nzcv n z0 c0 v0)).
Proof. intros. repeat split; auto. intros [] b Q; cbn in *; exact Q. Qed.
Lemma b1 : forall b, inr 1 b -> b = b2z (b =? 1).
Proof. intros b I0. unfold inr in I0. change (2 ^ 1) with 2 in I0. destruct (Z.eqb_spec b 1); [exact e|cbn; lia]. Qed.
Lemma flags_ok : forall rs e1 x y r, nodup3 rs = true -> forallb (fun r => okq (snd (fst r))) rs = true ->
  (forall n, existsb (fun r => Nat.eqb n (rn3 r)) rs = true -> (n <= 1)%nat) ->
  (forall vs, rv_ok g rs vs -> pso vs (vX 0) Sc (fty z) (fun _ => Some x)) -> (forall vs, rv_ok g rs vs -> pso vs e1 Sc (fty z) (fun _ => Some y)) ->
  ob (fpo (FCmp P_UNO) (fty z) (TInt 1) [x; y]) (fun un => ob (fpo (FCmp P_OEQ) (fty z) (TInt 1) [x; y]) (fun eq => ob (fpo (FCmp P_OLT) (fty z) (TInt 1) [x; y]) (fun lt =>
    Some (wrf g (nzcv (lt =? 1) (eq =? 1) (negb (lt =? 1)) (un =? 1)))))) = Some r ->
  vok (Some (Some (map rdv rs ++ FlagCalcFP (fty z) (vX 0) e1))) g r.
Proof.
  intros rs e1 x y r ND OK LE P0 P1 E.
  apply ob_some in E. destruct E as (un & EU & E). apply ob_some in E. destruct E as (eq & EQ0 & E). apply ob_some in E. destruct E as (lt & EL & E). injection E as <-.
  assert (PC : forall pr b, fpo (FCmp pr) (fty z) (TInt 1) [x; y] = Some b -> forall vs, rv_ok g rs vs -> psh c vs (eFCmp pr (fty z) (vX 0) e1) Sc (TInt 1) (fun _ => b)).
  { intros pr b EB vs RV. eapply (pso_fcmp c vs pr (vX 0) e1 Sc (fty z) _ _ (P0 vs RV) (P1 vs RV)); [side..|]. intros k K. cbn [ob]. exact EB. }
  eexists. split; [reflexivity|]. intros p rt l' Q C. rewrite <- app_assoc. apply K_reads; [exact ND|exact OK|]. intros vs' M RV.
  assert (UPD : forall n v vs, (2 <= n)%nat -> rv_ok g rs vs -> rv_ok g rs (upd_var vs n v)).
  { clear - LE. induction rs as [|[[a q] f] tl IH]; cbn [rv_ok]; intros n v vs N R; [exact I|]. destruct R as [R R']. split.
    - unfold upd_var. destruct (Nat.eqb_spec n a); [|exact R]. specialize (LE a ltac:(cbn [existsb rn3 fst]; rewrite Nat.eqb_refl; reflexivity)). lia.
    - apply IH; [|exact N|exact R']. intros m X. apply LE. cbn [existsb]. rewrite X. apply orb_true_r. }
  assert (KV : forall pr b vs g0, fpo (FCmp pr) (fty z) (TInt 1) [x; y] = Some b -> rv_ok g rs vs -> kvals c g0 p vs (eFCmp pr (fty z) (vX 0) e1) (V (TInt 1) b)).
  { intros pr b vs g0 EB R s rt0 (_ & _ & VS & _). apply (proj1 (PC pr b EB (Dsl.s_var s) (rv_ok_mono g rs vs (Dsl.s_var s) R VS)) s eq_refl). }
  assert (BI : forall pr b, fpo (FCmp pr) (fty z) (TInt 1) [x; y] = Some b -> b = b2z (b =? 1)).
  { intros pr b EB. apply b1. unfold fpo in EB. destruct (fpu_op _ _ _ _); [|discriminate]. injection EB as <-. apply trunc_inr. cbn. lia. }
  unfold FlagCalcFP. cbn [app].
  eapply K_let; [apply (KV P_UNO un); [exact EU|exact RV]|]. eapply K_let; [apply (KV P_OEQ eq); [exact EQ0|apply UPD; [lia|exact RV]]|].
  eapply K_let; [apply (KV P_OLT lt); [exact EL|apply UPD; [lia|apply UPD; [lia|exact RV]]]|].
  apply (K_setflag c _ _ _ _ fN _ (lt =? 1)). { rewrite <- (BI _ _ EL). apply kv_var. reflexivity. }
  apply (K_setflag c _ _ _ _ fZ _ (eq =? 1)). { rewrite <- (BI _ _ EQ0). apply kv_var. reflexivity. }
  apply (K_setflag c _ _ _ _ fC _ (negb (lt =? 1))).
  { apply (kv_not1 c). rewrite <- (BI _ _ EL). apply kv_var. reflexivity. }
  apply (K_setflag c _ _ _ _ fV _ (un =? 1)). { rewrite <- (BI _ _ EU). apply kv_var. reflexivity. }
  eapply K_weaken; [apply kle_nzcv'|]. apply C.
Qed.
Lemma s_cmp : forall o, In o [S_FCMP; S_FCMP_Z] -> sgoal o.
Proof.
  intros o I0 r E. destruct I0 as [<-|[<-|[]]]; unfold esfp in E; nrm.
  - eapply flags_ok; [oks|oks| | | |exact E].
    + intros n X. cbn [existsb rn3 fst] in X. rewrite orb_false_r in X. apply orb_true_iff in X. destruct X as [X|X]; apply Nat.eqb_eq in X; lia.
    + rvs. fgo.
    + rvs. fgo.
  - eapply flags_ok; [oks|oks| | | |exact E].
    + intros n X. cbn [existsb rn3 fst] in X. rewrite orb_false_r in X. apply Nat.eqb_eq in X; lia.
    + rvs. fgo.
    + rvs. pose proof (cst_sf vs 0) as P. replace (U (fwid z) 0) with 0 in P by (unfold U; rewrite Zmod_0_l; reflexivity). exact P.
Qed.
End Scalar.

(** Every scalar floating-point instruction's code has the effect [esfp]. *)
Theorem sfp_emit : forall `{FpuOps} c i g z o r, c_arch c = AArch64 -> sfmt (v_fsz i) = Some z -> wf_sfp i o = true -> esfp i g z o = Some r ->
  vok c (lift_sfp i o) g r.
Proof.
  intros F c i g z o r HA SF0 WF E. unfold wf_sfp in WF. do 5 (apply andb_true_iff in WF as [WF ?]).
  destruct o; revert r E;
    first [eapply s_simple; try eassumption; cbn [In]; tauto|eapply s_rint; try eassumption; cbn [In]; tauto|eapply s_cast; try eassumption; cbn [In]; tauto
          |eapply s_cmp; try eassumption; cbn [In]; tauto|eapply s_tofix; eassumption|eapply s_cvtf; eassumption].
Qed.
