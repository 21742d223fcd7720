(** Lifted SSE instructions against the specification: results in memory,
    general-purpose registers and flags. *)

From Coq Require Import ZArith Lia ZifyBool List Bool.
From Verif Require Import Bits IR Facet Dsl Rv64 Rv64Spec Rv64Sim Rv64Arith X86 X86Spec X86Arith X86Sim X86Ops X86Sse X86SseSpec X86SseVec X86SseSim X86SseOps X86SseOps2 X86SseOps3 X86SseOps4 X86SseStep X86SseStep2.
Import ListNotations.
Open Scope Z_scope.
Ltac Zify.zify_post_hook ::= Z.div_mod_to_equations.

Section Step.
Context `{FpuOps}.
Variable c : cenv.
Variable cfg : xcfg.
Hypothesis HA : c_arch c = X86_64.
Hypothesis GB : gbase_ok c.
Variable kc : areg -> konst.
Variable pc : Z.
Notation Zt := (Zt c pc). Notation zdone := (zdone c). Notation ldok := (ldok cfg).
Notation qload := (qload c cfg kc). Notation qstore := (qstore c cfg kc). Notation gstore := (gstore c cfg kc).
Notation zctx := (zctx c kc pc).

(** *** Memory destinations *)
Section Mem.
Variable i : sinst.
Variable g : zst.
Variables W : Z.
Variable m : xmem.
Variable rt : bool.
Variable vs : nat -> option rv.
Hypothesis C : zctx g.
Hypothesis I0 : i_op0 i = QM W m.
Hypothesis WF : wf_mem m = true.
Hypothesis GM : good_mem cfg (m_seg m) m = true.
Notation b := (s_val g (i_op1 i)).
Notation ad := (ea (z_x g) m).
Notation Goal l w v := (Zt g vs rt l (zdone (set_x g (set_m (z_x g) (wr_mem (y_m (z_x g)) ad (Z.to_nat (w / 8)) v))) rt)).

Lemma m_any : forall f a1 t e al w v, okf (facet_Resolve f (q_bits (i_op1 i))) = true ->
  ldok g (i_op1 i) (facet_type (facet_Resolve f (q_bits (i_op1 i)))) a1 ->
  val1 c (facet_type (facet_Resolve f (q_bits (i_op1 i)))) b e t v -> ad mod al = 0 -> inr w v -> tsize t = w -> 0 <= w <= 128 -> w mod 8 = 0 ->
  Goal (qload 1 (i_op1 i) f a1 ++ [(al, SStore e (sAddr c cfg kc m))]) w v.
Proof.
  intros f a1 t e al w v O L E A I T R D. eapply out_mem; try eassumption. symmetry. apply trunc_small. exact I.
Qed.
Lemma M_movq : forall f w, f = I32 /\ w = 32 \/ f = I64 /\ w = 64 -> ldok g (i_op1 i) (TInt w) ANone -> Goal (LiftSseMovq c cfg kc i f) w (U w b).
Proof.
  intros f w F L. unfold LiftSseMovq. rewrite I0. cbn [q_isvec X86Sse.gstore].
  destruct F as [[-> ->]|[-> ->]].
  all: eapply m_any; [reflexivity|exact L|exact (s_var c _ _)|apply Z.mod_1_r|apply trunc_inr; lia|reflexivity|lia|reflexivity].
Qed.
Lemma M_movs : forall f w, f = I32 /\ w = 32 \/ f = I64 /\ w = 64 -> q_ismem (i_op1 i) = false -> ldok g (i_op1 i) (TInt w) ANone -> ad mod (w / 8) = 0 ->
  Goal (LiftSseMovScalar c cfg kc i f) w (U w b).
Proof.
  intros f w F Q L A. unfold LiftSseMovScalar. rewrite Q, I0. cbn [app X86Sse.qstore].
  destruct F as [[-> ->]|[-> ->]].
  all: eapply m_any; [reflexivity|exact L|exact (s_var c _ _)|exact A|apply trunc_inr; lia|reflexivity|lia|reflexivity].
Qed.
Lemma M_movdq : forall f al, okf f = true -> (forall x, facet_Resolve f x = f) -> tsize (facet_type f) = 128 -> ldok g (i_op1 i) (facet_type f) al -> inr 128 b ->
  ad mod aset (facet_type f) al true = 0 -> Goal (LiftSseMovdq c cfg kc i f al) 128 b.
Proof.
  intros f al O RS S L IB A. unfold LiftSseMovdq. rewrite I0. cbn [X86Sse.qstore].
  eapply m_any; [rewrite RS; exact O|rewrite RS; exact L| |exact A|exact IB|exact S|lia|reflexivity].
  rewrite RS. replace b with (trunc (tsize (facet_type f)) b) at 2 by (rewrite S; apply trunc_small; exact IB). exact (s_var c _ _).
Qed.
Lemma M_movnt : forall f n s, ve f n s -> q_bits (i_op1 i) = 128 -> ldok g (i_op1 i) (TVec n s) AMax -> inr 128 b -> ad mod 16 = 0 ->
  Goal (LiftSseMovntStore c cfg kc i f) 128 b.
Proof.
  intros f n s VE QB L IB A. destruct (ve_n _ _ _ VE) as (NW & PN & PW & _). destruct VE as (T & O & EN & _).
  assert (S : tsize (TVec n s) = 128) by exact NW.
  unfold LiftSseMovntStore. rewrite I0, QB, T, S.
  eapply m_any; [rewrite QB; exact O|rewrite QB, T; exact L| |exact A|exact IB|exact S|lia|reflexivity].
  rewrite QB, T. replace b with (trunc (tsize (TVec n s)) b) at 2 by (rewrite S; apply trunc_small; exact IB). exact (s_var c _ _).
Qed.
Lemma M_movlp : i_mn i = S_MOVLPS \/ i_mn i = S_MOVLPD -> ldok g (i_op1 i) (TVec 2 TF32) ANone -> ldok g (i_op1 i) TF64 ANone -> ad mod 8 = 0 ->
  Goal (LiftSseMovlp c cfg kc i) 64 (U 64 b).
Proof.
  intros M L1 L2 A. unfold LiftSseMovlp. rewrite I0. cbn [q_isreg andb X86Sse.qstore].
  destruct M as [-> | ->].
  - eapply (m_any V2F32); [reflexivity|exact L1|exact (s_var c _ _)|exact A|apply trunc_inr; cbn; lia|reflexivity|lia|reflexivity].
  - eapply (m_any F64); [reflexivity|exact L2|exact (s_var c _ _)|exact A|apply trunc_inr; cbn; lia|reflexivity|lia|reflexivity].
Qed.
Lemma M_movhps : ldok g (i_op1 i) (TVec 4 TF32) ANone -> ad mod 8 = 0 -> Goal (LiftSseMovhps c cfg kc i) 64 (Ln 64 b 1).
Proof.
  intros L A. unfold LiftSseMovhps. rewrite I0. cbn [q_ismem X86Sse.qstore].
  eapply (m_any V4F32); [reflexivity|exact L|apply (hi2_val c 0)|exact A|apply Ln_inr; lia|reflexivity|lia|reflexivity].
Qed.
Lemma M_movhpd : ldok g (i_op1 i) (TVec 2 TF64) ANone -> ad mod 8 = 0 -> Goal (LiftSseMovhpd c cfg kc i) 64 (Ln 64 b 1).
Proof.
  intros L A. unfold LiftSseMovhpd. rewrite I0. cbn [q_ismem X86Sse.qstore].
  eapply (m_any V2F64); [reflexivity|exact L|apply (s_extract c 1 2 TF64); cbn; lia|exact A|apply Ln_inr; lia|reflexivity|lia|reflexivity].
Qed.
Lemma M_pextr : forall f n s bits mask imm, ve f n s -> q_bits (i_op1 i) = 128 -> q_imm (i_op2 i) = imm -> n = 2 ^ bits -> 0 <= bits <= 8 -> mask = 2 ^ bits - 1 ->
  ldok g (i_op1 i) (TVec n s) ANone -> Goal (LiftSsePextr c cfg kc i f mask) (tsize s) (Ln (tsize s) b (U 8 imm mod n)).
Proof.
  intros f n s bits mask imm VE QB EI NB B M L. unfold LiftSsePextr. rewrite I0, QB, EI, M, land_mod, U8_mod by lia. cbn [X86Sse.gstore].
  destruct (ve_n _ _ _ VE) as (NW & PN & PW & _). destruct VE as (T & O & EN & EL).
  assert (R : 0 <= U 8 imm mod n < n) by (apply Z.mod_pos_bound; lia).
  unfold felt. rewrite T, <- NB.
  eapply m_any; [rewrite QB; exact O|rewrite QB, T; exact L|rewrite QB, T; apply (s_extract c (U 8 imm mod n) n s); [lia|exact R]|apply Z.mod_1_r|apply Ln_inr; lia|reflexivity|lia|].
  destruct s; try discriminate EL; try reflexivity. cbn [el tsize] in *.
  repeat (apply orb_prop in EL; destruct EL as [EL|EL]); apply Z.eqb_eq in EL; subst; reflexivity.
Qed.
End Mem.

(** *** General-purpose destinations *)
Section Gp.
Variable i : sinst.
Variable g : zst.
Variables W r : Z.
Variable rt : bool.
Variable vs : nat -> option rv.
Hypothesis C : zctx g.
Hypothesis I0 : i_op0 i = QG W r.
Hypothesis N : okr r = true.
Notation b := (s_val g (i_op1 i)).
Notation Goal l v := (Zt g vs rt l (zdone (set_x g (wr_reg (z_x g) 64 r v)) rt)).

Lemma inr64 : forall w z, 0 <= w <= 64 -> inr w z -> inr 64 z.
Proof. intros w z L I. unfold inr in *. assert (2 ^ w <= 2 ^ 64) by (apply Z.pow_le_mono_r; lia). lia. Qed.
Lemma G_movq : forall f w, f = I32 /\ w = 32 \/ f = I64 /\ w = 64 -> W = w -> ldok g (i_op1 i) (TInt w) ANone -> Goal (LiftSseMovq c cfg kc i f) (U w b).
Proof.
  intros f w F -> L. unfold LiftSseMovq. rewrite I0. cbn [q_isvec X86Sse.gstore].
  destruct F as [[-> ->]|[-> ->]].
  - eapply out_gp; [exact HA|exact GB|exact C|reflexivity|exact L|exact (s_var c _ _)|exact N|apply (inr64 32); [lia|apply trunc_inr; lia]].
  - eapply out_gp; [exact HA|exact GB|exact C|reflexivity|exact L|exact (s_var c _ _)|exact N|apply trunc_inr; cbn; lia].
Qed.
Lemma G_movmsk : forall f n w, ve f n (TInt w) -> W = 64 -> q_bits (i_op1 i) = 128 -> ldok g (i_op1 i) (TVec n (TInt w)) AMax ->
  Goal (LiftSseMovmsk c cfg kc i f) (signs w b).
Proof.
  intros f n w VE W64 QB L. unfold LiftSseMovmsk. rewrite I0, QB, W64. cbn [X86Sse.gstore tsize Z.eqb Pos.eqb].
  destruct (ve_n _ _ _ VE) as (NW & PN & PW & _). rewrite (ve_fcnt _ _ _ VE). destruct VE as (T & O & EN & _). cbn [tsize] in *. rewrite T.
  assert (B : n <= 16) by nia. unfold signs. rewrite <- EN.
  eapply out_gp; [exact HA|exact GB|exact C|rewrite QB; exact O|rewrite QB, T; exact L|rewrite QB, T; apply (s_movmsk c n w b); lia|exact N|].
  apply (inr64 (1 * Z.of_nat (Z.to_nat n))); [lia|]. apply vec_inr; [lia|]. intros k K. destruct (_ <? _); unfold inr; cbn; lia.
Qed.
Lemma G_pextr : forall f n s bits mask imm, ve f n s -> s <> TF64 -> q_bits (i_op1 i) = 128 -> q_imm (i_op2 i) = imm -> n = 2 ^ bits -> 0 <= bits <= 8 -> mask = 2 ^ bits - 1 ->
  ldok g (i_op1 i) (TVec n s) ANone -> Goal (LiftSsePextr c cfg kc i f mask) (Ln (tsize s) b (U 8 imm mod n)).
Proof.
  intros f n s bits mask imm VE NF QB EI NB B M L. unfold LiftSsePextr. rewrite I0, QB, EI, M, land_mod, U8_mod by lia.
  destruct (ve_n _ _ _ VE) as (NW & PN & PW & _). pose proof VE as (T & O & EN & EL).
  assert (R : 0 <= U 8 imm mod n < n) by (apply Z.mod_pos_bound; lia).
  unfold fw, felt. rewrite T, <- NB.
  assert (I : inr 64 (Ln (tsize s) b (U 8 imm mod n))) by (apply (inr64 (tsize s)); [lia|apply Ln_inr; lia]).
  destruct s; try discriminate EL.
  - eapply out_gp; [exact HA|exact GB|exact C|rewrite QB; exact O|rewrite QB, T; exact L| |exact N|exact I].
    rewrite QB, T. cbn [tsize] in *. apply (s_zext64 c w); [lia|]. apply (s_extract c _ n (TInt w)); [cbn [tsize]; lia|exact R].
  - eapply out_gp; [exact HA|exact GB|exact C|rewrite QB; exact O|rewrite QB, T; exact L| |exact N|exact I].
    rewrite QB, T. cbn [tsize] in *. apply (s_zext64 c 32); [lia|]. apply s_bitcast. apply (s_extract c _ n TF32); [cbn [tsize]; lia|exact R].
  - contradiction NF; reflexivity.
Qed.
Lemma G_cvtt : forall f t z, sf f t -> W = 32 \/ W = 64 -> ldok g (i_op1 i) t ANone -> fop FToSI t (TInt W) [U (tsize t) b] = Some z ->
  Goal (LiftSseCvt c cfg kc i f FI) z.
Proof.
  intros f t z F HW L E. unfold LiftSseCvt. rewrite I0. cbn [q_bits].
  assert (FT : ftype t = true) by (destruct F as [[-> ->]|[-> ->]]; reflexivity).
  assert (X : Goal (qload 1 (i_op1 i) f ANone ++ [(1, SSet (GP r) (E1 (OFp1 FToSI (TInt W)) v1))]) z).
  { rewrite <- (fw_tsize t (ftype_stype t FT)) in E.
    assert (ST : stype (TInt W) = true) by (destruct HW as [-> | ->]; reflexivity).
    assert (Q : val1 c t b (E1 (OFp1 FToSI (TInt W)) v1) (TInt W) z) by (eapply s_fop1; [apply ftype_stype; exact FT|exact ST|exact E]).
    assert (IZ : inr 64 z) by (apply (inr64 W); [lia|]; exact (fop_inr FToSI t (TInt W) _ z ST E)).
    destruct F as [[-> ->]|[-> ->]]; (eapply out_gp; [exact HA|exact GB|exact C|reflexivity|exact L|exact Q|exact N|exact IZ]). }
  destruct F as [[-> ->]|[-> ->]], HW as [-> | ->]; exact X.
Qed.
End Gp.

(** *** Comparisons that set the flags *)
Lemma zrel_flag : forall s g f o b, zrel s g -> (forall b', b = Some b' -> flag_is (with_reg s (upd_reg (s_reg s) (cell f) o)) f b') ->
  zrel (with_reg s (upd_reg (s_reg s) (cell f) o)) (set_x g (set1 (z_x g) f b)).
Proof.
  intros s g f o b [R Q] F. split; [apply xrel_flag; assumption|]. intros n K. cbn [set_x z_q with_reg s_reg].
  unfold upd_reg. replace (areg_eqb (cell f) (VEC n)) with false by (destruct f; reflexivity). auto.
Qed.
Lemma Zt_flag : forall g vs rt f e b l Q, pv c vs e (V (TInt 1) (b2z b)) -> f <> fPF ->
  Zt (set_x g (set1 (z_x g) f (Some b))) vs rt l Q -> Zt g vs rt ((1, SSet (cell f) e) :: l) Q.
Proof.
  intros g vs rt f e b l Q E N K s (R & P & VS & RT). cbn [arun aok bind run1]. rewrite (E s VS). cbn [bind set_cell]. rewrite native_flag by exact HA.
  apply K. split; [|auto]. apply zrel_flag; [exact R|].
  intros b' EB. injection EB as <-. destruct f; try congruence; cbn [flag_is cell with_reg s_reg]; rewrite upd_reg_eq, trunc_small by (apply inr_b2z; lia); reflexivity.
Qed.
Lemma Zt_pf : forall g vs rt e t z b l Q, pv c vs e (V t z) -> b = pf_of z ->
  Zt (set_x g (set1 (z_x g) fPF (Some b))) vs rt l Q -> Zt g vs rt ((1, SSet PF e) :: l) Q.
Proof.
  intros g vs rt e t z b l Q E -> K s (R & P & VS & RT). cbn [arun aok bind run1]. rewrite (E s VS). cbn [bind set_cell]. change PF with (cell fPF). rewrite native_flag by exact HA.
  apply K. split; [|auto]. apply zrel_flag; [exact R|].
  intros b' EB. injection EB as <-. cbn [flag_is cell with_reg s_reg]. exists (trunc 8 z). rewrite upd_reg_eq. split; [reflexivity|].
  split; [apply trunc_range; lia|]. apply pf_trunc. lia.
Qed.
Lemma L_comis : forall rel i g w0 d f t rt vs, fpu_std rel -> zctx g -> i_op0 i = QX w0 d -> okr d = true -> sf f t -> ldok g (i_op1 i) t ANone ->
  Zt g vs rt (LiftSseComis c cfg kc i f)
    (zdone (set_x g (comis_flags (rel t (U (tsize t) (z_q g d)) (U (tsize t) (s_val g (i_op1 i)))) (z_x g))) rt).
Proof.
  intros rel i g w0 d f t rt vs [FC _] C I0 N F L. unfold LiftSseComis. rewrite I0.
  assert (FF : facet_type f = t /\ okf f = true /\ (forall x, facet_Resolve f x = f) /\ ftype t = true) by (destruct F as [[-> ->]|[-> ->]]; repeat split).
  destruct FF as (FT & O & RS & TF). rewrite FT.
  eapply Zt_load; [exact GB|exact C|rewrite RS; exact O|exact N|]. cbn zeta. eapply Zt_load; [exact GB|exact C|rewrite RS; exact O|rewrite RS, FT; exact L|]. cbn zeta.
  rewrite !RS, !FT. cbn [s_val]. set (vs2 := upd_var _ 2 _).
  pose proof (fun p => s_fcmp c rel FC p t (z_q g d) (s_val g (i_op1 i)) TF vs2 eq_refl eq_refl) as P.
  rewrite (fw_tsize t (ftype_stype t TF)) in P. set (R := rel t _ _) in *.
  cbn [A1 map]. change ZF with (cell fZF). change CF with (cell fCF). change AF with (cell fAF). change OF with (cell fOF). change SF with (cell fSF).
  eapply Zt_flag; [apply (P FUEQ)|discriminate|]. eapply Zt_flag; [apply (P FULT)|discriminate|].
  eapply Zt_pf with (z := b2z (fp_holds FORD R)); [|reflexivity|].
  { eapply pv_1; [apply (P FORD)|]. reflexivity. }
  eapply (Zt_flag _ _ _ fAF _ false); [apply pv_const|discriminate|]. eapply (Zt_flag _ _ _ fOF _ false); [apply pv_const|discriminate|].
  eapply (Zt_flag _ _ _ fSF _ false); [apply pv_const|discriminate|].
  intros s ([RX RQ] & PC & VS & RT). exists s. split; [reflexivity|]. split; [|split; [rewrite PC; exact (PCV c kc pc g C)|exact RT]].
  split; [|exact RQ]. destruct RX as [A B D E G I J M]. split; try assumption.
  intros f' b' Hf. apply J. rewrite <- Hf. destruct f'; try reflexivity; destruct R as [[| |]|]; reflexivity.
Qed.
End Step.
