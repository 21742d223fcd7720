(** Values computed by the lifted SSE instructions: floating point, masks,
    extraction. *)

From Coq Require Import ZArith Lia ZifyBool List Bool.
From Verif Require Import Bits IR Facet Dsl Rv64 Rv64Spec Rv64Sim Rv64Arith X86 X86Spec X86Arith X86Sim X86Ops X86Sse X86SseSpec X86SseVec X86SseSim X86SseOps X86SseOps2 X86SseOps3.
Import ListNotations.
Open Scope Z_scope.
Ltac Zify.zify_post_hook ::= Z.div_mod_to_equations.

(** Lanes that are all defined. *)
Lemma ovec_some : forall w f n v, ovec w f n = Some v ->
  (forall k, 0 <= k < Z.of_nat n -> f k = Some (match f k with Some x => x | None => 0 end)) /\
  v = vec w (fun k => match f k with Some x => x | None => 0 end) n.
Proof.
  induction n as [|n IH]; intros v E; cbn [ovec vec] in *.
  - injection E as <-. split; [lia|reflexivity].
  - destruct (ovec w f n) as [x|]; [|discriminate]. destruct (f (Z.of_nat n)) as [y|] eqn:F; [|discriminate]. injection E as <-.
    destruct (IH x eq_refl) as [A ->]. split; [|reflexivity]. intros k K. destruct (Z.eq_dec k (Z.of_nat n)) as [->|N].
    + rewrite F. reflexivity.
    + apply A. lia.
Qed.
Definition ftype (t : ty) : bool := match t with TF32 | TF64 => true | _ => false end.
Definition stype (t : ty) : bool := match t with TF32 | TF64 => true | TInt w => 0 <=? w | _ => false end.
(** How the two-operand comparison behaves (LLVM Language Reference, "fcmp"):
    bit 0 of the predicate number is "equal", bit 1 "greater", bit 2 "less",
    bit 3 "unordered". *)
Definition fp_holds (p : Z) (r : option comparison) : bool :=
  Z.testbit p (match r with Some Eq => 0 | Some Gt => 1 | Some Lt => 2 | None => 3 end).
Definition fcmp_std `{FpuOps} (rel : ty -> Z -> Z -> option comparison) : Prop :=
  forall p t a b, fpu_op (FCmp p) t (TInt 1) [a; b] = Some (b2z (fp_holds p (rel t a b))).

Section Fam.
Context `{FpuOps}.
Variable c : cenv.
Notation vres := (vres c). Notation vres1 := (vres1 c).
Notation val2 := (val2 c). Notation val1 := (val1 c).

Lemma fop_fires : forall f s t l v, stype t = true -> fop f s t l = Some v -> fires f s t l = IV v.
Proof.
  intros f s t l v T E. unfold fop in E. unfold fires. destruct (fpu_op f s t l) as [z|]; [|discriminate]. injection E as <-.
  destruct t; try discriminate T; reflexivity.
Qed.
Lemma stype_size : forall t, stype t = true -> 0 <= tsize t.
Proof. intros t T. destruct t; try discriminate T; cbn [tsize]; cbn [stype] in T; lia. Qed.
Lemma ftype_stype : forall t, ftype t = true -> stype t = true.
Proof. intros t T. destruct t; try discriminate T; reflexivity. Qed.
Lemma ftype_fp : forall t, ftype t = true -> is_fp t = true.
Proof. intros t T. destruct t; try discriminate T; reflexivity. Qed.
Lemma stype_elt : forall t, stype t = true -> elt t = (1, t).
Proof. intros t T. destruct t; try discriminate T; reflexivity. Qed.
Lemma fw_tsize : forall t, stype t = true -> fw_ t = tsize t.
Proof. intros t T. destruct t; try discriminate T; reflexivity. Qed.

(** Scalars. *)
Lemma lanes1 : forall w z, inr w z -> lanes 1 w z = [z].
Proof.
  intros w z I. change (lanes 1 w z) with [lane w z 0]. f_equal. unfold lane. rewrite Z.mul_0_r. cbn [Z.shiftr Z.shiftl Z.opp].
  apply trunc_small. exact I.
Qed.
Lemma unlanes1 : forall w z, unlanes w [z] = z.
Proof. intros. cbn [unlanes]. lia. Qed.
Lemma pv_fp2 : forall vs f t t' a b x y z, pv c vs a (V t x) -> pv c vs b (V t y) -> ftype t = true -> stype t' = true ->
  inr (tsize t) x -> inr (tsize t) y -> fires f t t' [x; y] = IV z -> pv c vs (E2 (OFp2 f t') a b) (V t' z).
Proof.
  intros vs f t t' a b x y z A B T T' X Y F. eapply pv_2; [exact A|exact B|]. cbn [sem2]. unfold fp2_sem. cbn [ty_of].
  rewrite (stype_elt t (ftype_stype t T)), (stype_elt t' T'), ty_eqb_refl, (ftype_fp t T). cbn [Z.eqb Pos.eqb andb].
  unfold vec2. rewrite !lanes1 by assumption. unfold map2. cbn [combine map fst snd seq_ires]. rewrite F. cbn [of_lanes]. rewrite unlanes1. reflexivity.
Qed.
Lemma pv_fp1 : forall vs f t t' a x z, pv c vs a (V t x) -> stype t = true -> stype t' = true ->
  inr (tsize t) x -> fires f t t' [x] = IV z -> pv c vs (E1 (OFp1 f t') a) (V t' z).
Proof.
  intros vs f t t' a x z A T T' X F. eapply pv_1; [exact A|]. cbn [sem1]. unfold fp1_sem. cbn [ty_of].
  rewrite (stype_elt t T), (stype_elt t' T'). cbn [Z.eqb Pos.eqb].
  unfold vec1. rewrite !lanes1 by assumption. cbn [map seq_ires]. rewrite F. cbn [of_lanes]. rewrite unlanes1. reflexivity.
Qed.
Lemma fop_inr : forall f s t l v, stype t = true -> fop f s t l = Some v -> inr (tsize t) v.
Proof.
  intros f s t l v T E. unfold fop in E. destruct (fpu_op f s t l) as [z|]; [|discriminate]. injection E as <-. rewrite fw_tsize by exact T.
  apply trunc_inr. apply stype_size. exact T.
Qed.
Lemma s_fop2 : forall f t a b v, ftype t = true -> fop f t t [U (fw_ t) a; U (fw_ t) b] = Some v ->
  val2 t t a b (E2 (OFp2 f t) v1 v2) t v.
Proof.
  intros f t a b v T E vs V1 V2. pose proof (ftype_stype t T) as ST. rewrite (fw_tsize t ST) in E. change U with trunc in E.
  eapply pv_fp2; [apply pv_var; exact V1|apply pv_var; exact V2|exact T|exact ST|apply trunc_inr, stype_size, ST|apply trunc_inr, stype_size, ST|].
  apply fop_fires; assumption.
Qed.
Lemma s_fop1 : forall f t t' b v, stype t = true -> stype t' = true -> fop f t t' [U (fw_ t) b] = Some v ->
  val1 t b (E1 (OFp1 f t') v1) t' v.
Proof.
  intros f t t' b v T T' E vs V1. rewrite (fw_tsize t T) in E. change U with trunc in E.
  eapply pv_fp1; [apply pv_var; exact V1|exact T|exact T'|apply trunc_inr, stype_size, T|]. apply fop_fires; assumption.
Qed.
(** Packed. *)
Lemma f_fop2 : forall f n t a b h, ftype t = true -> 0 <= n -> (forall k, 0 <= k < n -> fop f t t [Ln (tsize t) a k; Ln (tsize t) b k] = Some (h k)) ->
  vres (TVec n t) (TVec n t) a b (E2 (OFp2 f (TVec n t)) v1 v2) n t h.
Proof.
  intros f n t a b h T N E vs V1 V2. pose proof (stype_size t (ftype_stype t T)). eapply pvec_fp2; [pv1; assumption|pv1; assumption|apply ftype_fp; exact T|assumption|assumption|].
  intros k K. apply fop_fires; [apply ftype_stype; exact T|apply E; exact K].
Qed.
Lemma f_fop1 : forall f n t t' b h, stype t = true -> stype t' = true -> 0 <= n -> (forall k, 0 <= k < n -> fop f t t' [Ln (tsize t) b k] = Some (h k)) ->
  vres1 (TVec n t) b (E1 (OFp1 f (TVec n t')) v1) n t' h.
Proof.
  intros f n t t' b h T T' N E vs V1. pose proof (stype_size t T). pose proof (stype_size t' T'). eapply pvec_fp1; [pv1; assumption|assumption|assumption|].
  intros k K. apply fop_fires; [exact T'|apply E; exact K].
Qed.
(** Two results widened with zeros to four lanes. *)
Lemma f_half : forall t1 b e t h, 0 <= tsize t -> vres1 t1 b e 2 t h ->
  vres1 t1 b (eShuf [0; 1; 2; 3] e (eNull (TVec 2 t))) 4 t (fun k => if k <? 2 then h k else 0).
Proof.
  intros t1 b e t h T E vs V1. eapply pvec_ext.
  - apply (pvec_shufm c vs 4 (fun k => k) e (eNull (TVec 2 t)) 2 t h (fun _ => 0)); [apply E; exact V1|apply pvec_null; exact T|exact T|lia|lia].
  - lia.
  - reflexivity.
Qed.
Lemma half_vec : forall h, vec 32 (fun k => if k <? 2 then h k else 0) 4 = vec 32 h 2.
Proof. intros h. cbn [vec Z.of_nat Pos.of_succ_nat Pos.succ Z.ltb Z.compare Pos.compare Pos.compare_cont]. rewrite !Z.mul_0_l. lia. Qed.
Lemma f_fhz : forall f n t a b h, ftype t = true -> 0 <= n -> n mod 2 = 0 ->
  (forall k, 0 <= k < n -> let s := if k <? n / 2 then a else b in let j := if k <? n / 2 then k else k - n / 2 in
     fop f t t [Ln (tsize t) s (2 * j); Ln (tsize t) s (2 * j + 1)] = Some (h k)) ->
  vres (TVec n t) (TVec n t) a b (E2 (OFp2 f (TVec n t)) (eShuf (horz1 n) v1 v2) (eShuf (horz2 n) v1 v2)) n t h.
Proof.
  intros f n t a b h T N M E vs V1 V2. pose proof (stype_size t (ftype_stype t T)).
  destruct (pvec_horz c vs v1 v2 n t (Ln (tsize t) a) (Ln (tsize t) b)) as [P1 P2]; try assumption; try (pv1; assumption).
  eapply pvec_fp2; [exact P1|exact P2|apply ftype_fp; exact T|assumption|assumption|].
  intros k K. apply fop_fires; [apply ftype_stype; exact T|]. cbn beta. specialize (E k K). cbn zeta in E.
  destruct (k <? n / 2); exact E.
Qed.
Lemma f_addsub : forall n t a b h1 h2, ftype t = true -> 0 <= n ->
  (forall k, 0 <= k < n -> fop FSub t t [Ln (tsize t) a k; Ln (tsize t) b k] = Some (h1 k)) ->
  (forall k, 0 <= k < n -> fop FAdd t t [Ln (tsize t) a k; Ln (tsize t) b k] = Some (h2 k)) ->
  vres (TVec n t) (TVec n t) a b
    (eShuf (map (fun k => k + (if Z.odd k then n else 0)) (zseq n)) (E2 (OFp2 FSub (TVec n t)) v1 v2) (E2 (OFp2 FAdd (TVec n t)) v1 v2)) n t
    (fun k => if Z.even k then h1 k else h2 k).
Proof.
  intros n t a b h1 h2 T N E1 E2 vs V1 V2. pose proof (stype_size t (ftype_stype t T)). eapply pvec_ext.
  - apply (pvec_shufm c vs n _ _ _ n t h1 h2); try assumption; [eapply f_fop2; eassumption|eapply f_fop2; eassumption|].
    intros k K. destruct (Z.odd k); lia.
  - assumption.
  - intros k K. cbn beta. rewrite <- Z.negb_odd. destruct (Z.odd k); cbn [negb].
    + replace (k + n <? n) with false by lia. f_equal. lia.
    + replace (k + 0 <? n) with true by lia. f_equal. lia.
Qed.

(** Comparisons. *)
Variable rel : ty -> Z -> Z -> option comparison.
Hypothesis FC : fcmp_std rel.
Lemma b2z_inr1 : forall q, inr 1 (b2z q).
Proof. intros []; unfold inr; cbn; lia. Qed.
Lemma fires_cmp : forall p t x y, fires (FCmp p) t (TInt 1) [x; y] = IV (b2z (fp_holds p (rel t x y))).
Proof. intros. unfold fires. rewrite FC. cbn [tsize]. rewrite trunc_small by apply b2z_inr1. reflexivity. Qed.
Lemma s_fcmp : forall p t a b, ftype t = true ->
  val2 t t a b (eFCmp p t v1 v2) (TInt 1) (b2z (fp_holds p (rel t (U (fw_ t) a) (U (fw_ t) b)))).
Proof.
  intros p t a b T vs V1 V2. pose proof (ftype_stype t T) as ST. rewrite (fw_tsize t ST). change U with trunc.
  unfold eFCmp. replace (cmp_ty t) with (TInt 1) by (destruct t; try discriminate T; reflexivity).
  eapply pv_fp2; [apply pv_var; exact V1|apply pv_var; exact V2|exact T|reflexivity|apply trunc_inr, stype_size, ST|apply trunc_inr, stype_size, ST|].
  apply fires_cmp.
Qed.
Lemma p_fcmp : forall p n t a b, ftype t = true -> 0 <= n ->
  vres (TVec n t) (TVec n t) a b (eFCmp p (TVec n t) v1 v2) n (TInt 1) (fun k => b2z (fp_holds p (rel t (Ln (tsize t) a k) (Ln (tsize t) b k)))).
Proof.
  intros p n t a b T N vs V1 V2. pose proof (stype_size t (ftype_stype t T)). unfold eFCmp. cbn [cmp_ty].
  eapply pvec_fp2; [pv1; assumption|pv1; assumption|apply ftype_fp; exact T|assumption|cbn [tsize]; lia|]. intros k K. apply fires_cmp.
Qed.
Definition mm_pred (w : comparison) : Z := match w with Lt => FOLT | _ => FOGT end.
Lemma mm_holds : forall w t x y, w <> Eq -> (if fp_holds (mm_pred w) (rel t x y) then x else y) = fminmax rel w t x y.
Proof. intros w t x y N. unfold fminmax, fp_holds, mm_pred. destruct w; try contradiction; destruct (rel t x y) as [[]|]; reflexivity. Qed.
Lemma fminmax_inr : forall w t x y n, inr n x -> inr n y -> inr n (fminmax rel w t x y).
Proof. intros w t x y n X Y. unfold fminmax. destruct (rel t x y) as [[]|], w; assumption. Qed.
Lemma s_minmax : forall w t a b, w <> Eq -> ftype t = true ->
  val2 t t a b (eSel (eFCmp (mm_pred w) t v1 v2) v1 v2) t (fminmax rel w t (U (fw_ t) a) (U (fw_ t) b)).
Proof.
  intros w t a b N T vs V1 V2. pose proof (ftype_stype t T) as ST. pose proof (s_fcmp (mm_pred w) t a b T vs V1 V2) as Q.
  pose proof (pv_scalar_sel c vs _ _ _ _ _ _ Q (pv_var c vs 1%nat _ V1) (pv_var c vs 2%nat _ V2) eq_refl) as P.
  rewrite <- (mm_holds w t _ _ N). rewrite (fw_tsize t ST) in *. change U with trunc in *.
  destruct (fp_holds _ _); exact P.
Qed.
Lemma p_minmax : forall w n t a b, w <> Eq -> ftype t = true -> 0 <= n ->
  vres (TVec n t) (TVec n t) a b (eSel (eFCmp (mm_pred w) (TVec n t) v1 v2) v1 v2) n t (fun k => fminmax rel w t (Ln (tsize t) a k) (Ln (tsize t) b k)).
Proof.
  intros w n t a b N T P vs V1 V2. pose proof (stype_size t (ftype_stype t T)). eapply pvec_ext.
  - eapply pvec_sel; [eapply (p_fcmp (mm_pred w) n t a b T P); eassumption|pv1; assumption|pv1; assumption|]. destruct t; try discriminate T; cbn [tsize]; lia.
  - assumption.
  - intros k K. cbn beta. apply mm_holds. exact N.
Qed.
Lemma cmp_pred_holds : forall imm p r, cmp_pred imm = Some p -> 0 <= imm < 8 -> fp_holds p r = fpred imm r.
Proof.
  intros imm p r E I. assert (C : imm = 0 \/ imm = 1 \/ imm = 2 \/ imm = 3 \/ imm = 4 \/ imm = 5 \/ imm = 6 \/ imm = 7) by lia.
  repeat (destruct C as [->|C]; [cbn in E; injection E as <-; destruct r as [[]|]; reflexivity|]). subst imm. cbn in E. injection E as <-.
  destruct r as [[]|]; reflexivity.
Qed.
Lemma s_cmp : forall imm p t a b, cmp_pred imm = Some p -> 0 <= imm < 8 -> ftype t = true ->
  val2 t t a b (eCast CSExt (int_ty t) (eFCmp p t v1 v2)) (int_ty t) (mask_if (fw_ t) (fpred imm (rel t (U (fw_ t) a) (U (fw_ t) b)))).
Proof.
  intros imm p t a b E I T vs V1 V2. pose proof (s_fcmp p t a b T vs V1 V2) as Q. rewrite (cmp_pred_holds imm p _ E I) in Q.
  rewrite <- sext_mask by (destruct t; try discriminate T; cbn; lia).
  eapply pv_1; [exact Q|]. destruct t; try discriminate T; reflexivity.
Qed.
Lemma p_cmp : forall imm p n t a b, cmp_pred imm = Some p -> 0 <= imm < 8 -> ftype t = true -> 0 <= n ->
  vres (TVec n t) (TVec n t) a b (eCast CSExt (int_ty (TVec n t)) (eFCmp p (TVec n t) v1 v2)) n (TInt (tsize t))
    (fun k => mask_if (tsize t) (fpred imm (rel t (Ln (tsize t) a k) (Ln (tsize t) b k)))).
Proof.
  intros imm p n t a b E I T N vs V1 V2. cbn [int_ty]. eapply pvec_ext.
  - apply (pvec_sext c vs _ n 1 (tsize t)); [eapply (p_fcmp p n t a b T N); eassumption|]. destruct t; try discriminate T; cbn [tsize]; lia.
  - assumption.
  - intros k K. cbn beta. rewrite (cmp_pred_holds imm p _ E I). apply sext_mask. destruct t; try discriminate T; cbn [tsize]; lia.
Qed.

(** Sign masks. *)
Lemma s_movmsk : forall n w b, 1 < w -> 0 < n <= 64 ->
  val1 (TV n w) b (eZExt 64 (eBitCast (TInt n) (eCmp SLT v1 (eNull (TV n w))))) (TInt 64) (vec 1 (fun k => if S_ w (Ln w b k) <? 0 then 1 else 0) (Z.to_nat n)).
Proof.
  intros n w b W N vs V1. unfold TV in V1.
  assert (C : pvec c vs (eCmp SLT v1 (eNull (TV n w))) n (TInt 1) (fun k => if S_ w (Ln w b k) <? 0 then 1 else 0)).
  { eapply pvec_ext; [pv1|lia|]. intros k K. cbn beta. cbn [icmp_sem tsize]. rewrite (sgn_0 w) by lia. rewrite (S_small w) by (apply Ln_inr; lia).
    destruct (_ <? _); reflexivity. }
  destruct C as [P I].
  assert (B : pv c vs (eBitCast (TInt n) (eCmp SLT v1 (eNull (TV n w)))) (V (TInt n) (vec 1 (fun k => if S_ w (Ln w b k) <? 0 then 1 else 0) (Z.to_nat n)))).
  { eapply pv_1; [exact P|]. cbn [sem1]. unfold cast_sem, cast_fun. cbn [ty_of ty_eqb tsize]. rewrite Z.mul_1_r, Z.eqb_refl. reflexivity. }
  eapply pv_1; [exact B|]. cbn [sem1]. unfold cast_sem, cast_fun. cbn [ty_of ty_eqb]. destruct (Z.eqb_spec n 64) as [->|X]; [reflexivity|].
  cbn [icast]. replace (n <=? 64) with true by lia. reflexivity.
Qed.
(** Extraction. *)
Lemma s_extract : forall i n t b, 0 <= tsize t -> 0 <= i < n -> val1 (TVec n t) b (E1 (OExtract i) v1) t (Ln (tsize t) b i).
Proof. intros i n t b T I vs V1. apply (pv_extract c vs i v1 n t (Ln (tsize t) b)); [pv1|exact T|exact I]. Qed.
Lemma s_zext64 : forall w t1 b e z, 0 <= w <= 64 -> val1 t1 b e (TInt w) z -> val1 t1 b (eZExt 64 e) (TInt 64) z.
Proof.
  intros w t1 b e z W E vs V1. eapply pv_1; [apply E; exact V1|]. cbn [sem1]. unfold cast_sem, cast_fun. cbn [ty_of ty_eqb].
  destruct (Z.eqb_spec w 64) as [->|X]; [reflexivity|]. cbn [icast]. replace (w <=? 64) with true by lia. reflexivity.
Qed.
Lemma s_bitcast : forall t1 b e z, val1 t1 b e TF32 z -> val1 t1 b (eBitCast (TInt 32) e) (TInt 32) z.
Proof. intros t1 b e z E vs V1. eapply pv_1; [apply E; exact V1|]. reflexivity. Qed.
Lemma s_var : forall t b, val1 t b v1 t (trunc (tsize t) b).
Proof. intros t b vs V1. apply pv_var. exact V1. Qed.
End Fam.
