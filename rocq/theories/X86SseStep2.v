(** Lifted SSE instructions against the specification: scalar operations,
    conversions, insertions, shifts and moves to XMM registers. *)

From Coq Require Import ZArith Lia ZifyBool List Bool.
From Verif Require Import Bits IR Facet Dsl Rv64 Rv64Spec Rv64Sim Rv64Arith X86 X86Spec X86Arith X86Sim X86Ops X86Sse X86SseSpec X86SseVec X86SseSim X86SseOps X86SseOps2 X86SseOps3 X86SseOps4 X86SseStep.
Import ListNotations.
Open Scope Z_scope.
Ltac Zify.zify_post_hook ::= Z.div_mod_to_equations.

Lemma vec_first : forall w z n, vec w (fun k => if k =? 0 then z else 0) (S n) = z.
Proof.
  intros w z n. induction n as [|n IH].
  - cbn [vec Z.of_nat Z.eqb]. rewrite Z.mul_0_r. change (2 ^ 0) with 1. lia.
  - cbn [vec] in *. rewrite IH. replace (Z.of_nat (S n) =? 0) with false by lia. lia.
Qed.
(** Scalar floating-point facets. *)
Definition sf (f : facet) (t : ty) : Prop := f = F32 /\ t = TF32 \/ f = F64 /\ t = TF64.

Section Step.
Context `{FpuOps}.
Variable c : cenv.
Variable cfg : xcfg.
Hypothesis HA : c_arch c = X86_64.
Hypothesis GB : gbase_ok c.
Variable kc : areg -> konst.
Variable pc : Z.
Notation Zt := (Zt c pc). Notation zdone := (zdone c). Notation ldok := (ldok cfg).
Notation qload := (qload c cfg kc). Notation qstore := (qstore c cfg kc). Notation gstore := (gstore c cfg kc).
Notation zctx := (zctx c kc pc).
Section Mixed.
Variable i : sinst.
Variable g : zst.
Variable d : Z.
Variable w0 : Z.
Variable rt : bool.
Variable vs : nat -> option rv.
Hypothesis C : zctx g.
Hypothesis N : okr d = true.
Hypothesis I0 : i_op0 i = QX w0 d.
Hypothesis IA : inr 128 (z_q g d).
Notation a := (z_q g d). Notation b := (s_val g (i_op1 i)).
Notation Goal l r := (Zt g vs rt l (zdone (set_q g d r) rt)).
Ltac fx := rewrite ?I0; cbn [q_bits]; rewrite ?I0; cbn [q_bits].
Ltac sd := try (cbn [tsize]; lia).

(** Scalar results. *)
Lemma sc_stored : forall t z, tsize t < 128 -> 0 <= tsize t -> inr (tsize t) z -> stored t a z (low (tsize t) a z).
Proof. intros t z L P I. split; [exact I|right; split; [lia|reflexivity]]. Qed.
Lemma sc2 : forall f t a0 a1 e al t' z, sf f t -> ldok g (i_op1 i) t a1 -> val2 c t t a b e t' z -> tsize t' = tsize t -> inr (tsize t) z ->
  Goal (qload 1 (QX w0 d) f a0 ++ qload 2 (i_op1 i) f a1 ++ qstore (QX w0 d) t' e al) (low (tsize t) a z).
Proof.
  intros f t a0 a1 e al t' z [[-> ->]|[-> ->]] L E T I.
  all: eapply rm2_ok; [exact HA|exact GB|exact C|exact N|reflexivity|reflexivity|exact L|exact E|rewrite <- T; apply sc_stored; rewrite T; [reflexivity|discriminate|exact I]].
Qed.
Lemma sc1 : forall f t a1 e al t' z, okf (facet_Resolve f (q_bits (i_op1 i))) = true -> facet_type (facet_Resolve f (q_bits (i_op1 i))) = t ->
  ldok g (i_op1 i) t a1 -> val1 c t b e t' z -> 0 <= tsize t' < 128 -> inr (tsize t') z ->
  Goal (qload 1 (i_op1 i) f a1 ++ qstore (QX w0 d) t' e al) (low (tsize t') a z).
Proof.
  intros f t a1 e al t' z O T L E S I. subst t.
  eapply rm1_ok; [exact HA|exact GB|exact C|exact N|exact O|exact L|exact E|apply sc_stored; [lia|lia|exact I]].
Qed.
Lemma fop_inr' : forall op t l v, ftype t = true -> fop op t t l = Some v -> inr (tsize t) v.
Proof. intros op t l v T E. eapply fop_inr; [apply ftype_stype; exact T|exact E]. Qed.
Lemma sf_ftype : forall f t, sf f t -> ftype t = true.
Proof. intros f t [[-> ->]|[-> ->]]; reflexivity. Qed.
Lemma sf_res : forall f t w, sf f t -> facet_type (facet_Resolve f w) = t /\ okf (facet_Resolve f w) = true /\ facet_type f = t /\ fw_ t = tsize t.
Proof. intros f t w [[-> ->]|[-> ->]]; repeat split. Qed.
Lemma L_fsc : forall op f t r, sf f t -> ldok g (i_op1 i) t AImp -> fsc op t a b = Some r -> Goal (LiftSseFBinOp c cfg kc i op false f) r.
Proof.
  intros op f t r F L E. unfold LiftSseFBinOp. fx. destruct (sf_res f t w0 F) as (T & O & _ & FW). rewrite T. unfold fsc in E.
  destruct (fop op t t _) as [z|] eqn:Z1; [|discriminate]. injection E as <-. rewrite FW.
  eapply sc2; [exact F|exact L|eapply s_fop2; [exact (sf_ftype f t F)|exact Z1]|reflexivity|eapply fop_inr'; [exact (sf_ftype f t F)|exact Z1]].
Qed.
Lemma L_mms : forall rel w f t, fpu_std rel -> w <> Eq -> sf f t -> ldok g (i_op1 i) t AMax ->
  Goal (LiftSseMinmax c cfg kc i (mm_pred w) f) (low (tsize t) a (fminmax rel w t (U (tsize t) a) (U (tsize t) b))).
Proof.
  intros rel w f t [FC _] W F L. unfold LiftSseMinmax. fx. destruct (sf_res f t w0 F) as (T & O & _ & FW). rewrite T.
  pose proof (s_minmax c rel FC w t a b W (sf_ftype f t F)) as Q. rewrite FW in Q.
  pose proof (stype_size t (ftype_stype t (sf_ftype f t F))).
  eapply sc2; [exact F|exact L|exact Q|reflexivity|apply fminmax_inr; apply trunc_inr; assumption].
Qed.
Lemma L_cmps : forall rel f t imm r, fpu_std rel -> sf f t -> ldok g (i_op1 i) t AMax -> q_imm (i_op2 i) = imm -> -128 <= imm < 256 ->
  fcmps rel t (U 8 imm) a b = Some r -> Goal (LiftSseCmp c cfg kc i f) r.
Proof.
  intros rel f t imm r [FC _] F L EI RI E. unfold fcmps in E. destruct (Z.ltb_spec (U 8 imm) 8) as [L8|]; [|discriminate]. injection E as <-.
  assert (B : U 8 imm = imm /\ 0 <= imm < 8). { unfold U in *. change (2 ^ 8) with 256 in *. lia. } destruct B as [-> B].
  unfold LiftSseCmp. rewrite EI. destruct (cmp_pred_some imm B) as [p P]. rewrite P. fx. destruct (sf_res f t w0 F) as (T & O & _ & FW). rewrite T.
  pose proof (s_cmp c rel FC imm p t a b P B (sf_ftype f t F)) as Q. rewrite FW in *.
  eapply sc2; [exact F|exact L|exact Q|destruct F as [[-> ->]|[-> ->]]; reflexivity|apply mask_if_inr; destruct F as [[-> ->]|[-> ->]]; cbn; lia].
Qed.
Lemma L_sqrts : forall f t r, sf f t -> ldok g (i_op1 i) t ANone -> option_map (low (tsize t) a) (fop FSqrt t t [U (tsize t) b]) = Some r ->
  Goal (LiftSseSqrt c cfg kc i f) r.
Proof.
  intros f t r F L E. unfold LiftSseSqrt. fx. destruct (sf_res f t (q_bits (i_op1 i)) F) as (T & O & _ & FW). rewrite T.
  destruct (fop FSqrt t t _) as [z|] eqn:Z1; [|discriminate]. injection E as <-. rewrite <- FW in Z1. pose proof (sf_ftype f t F) as FT.
  eapply sc1; [exact O|exact T|exact L|eapply s_fop1; [apply ftype_stype, FT|apply ftype_stype, FT|exact Z1]| |eapply fop_inr'; [exact FT|exact Z1]].
  destruct F as [[-> ->]|[-> ->]]; cbn; lia.
Qed.

(** Conversions. *)
Lemma L_cvt_full : forall op sfc df n s t r, facet_type sfc = TVec n s -> facet_type df = TVec n t ->
  (forall w, facet_Resolve sfc w = sfc) -> okf sfc = true -> stype s = true -> stype t = true -> n * tsize t = 128 -> 0 <= n -> df <> FI ->
  op = cast_op s t -> ldok g (i_op1 i) (TVec n s) ANone ->
  ovec (tsize t) (fun k => fop op s t [Ln (tsize s) b k]) (Z.to_nat n) = Some r -> Goal (LiftSseCvt c cfg kc i sfc df) r.
Proof.
  intros op sfc df n s t r T1 T2 RS O ST TT B PN ND OP L E. unfold LiftSseCvt. fx.
  replace (match df with FI => facet_Resolve FI w0 | _ => df end) with df by (destruct df; try reflexivity; contradiction).
  rewrite RS. unfold felt. rewrite T1, T2. replace (tsize (TVec n t) =? 64) with false by (cbn [tsize]; lia). rewrite <- OP.
  apply ovec_some in E. destruct E as [D ->]. pose proof (stype_size t TT).
  eapply rm1_vec; [exact HA|exact GB|exact C|exact N|rewrite RS; exact T1|rewrite RS; exact O|exact L| |exact PN|assumption|exact B|].
  - apply (f_fop1 c op n s t b); [exact ST|exact TT|exact PN|]. intros k K. apply D. lia.
  - reflexivity.
Qed.
Lemma L_cvt_half : forall op sfc df s t r, facet_type sfc = TVec 2 s -> facet_type df = TVec 2 t ->
  (forall w, facet_Resolve sfc w = sfc) -> okf sfc = true -> stype s = true -> stype t = true -> tsize t = 32 -> df <> FI ->
  op = cast_op s t -> ldok g (i_op1 i) (TVec 2 s) ANone ->
  ovec 32 (fun k => fop op s t [Ln (tsize s) b k]) 2 = Some r -> Goal (LiftSseCvt c cfg kc i sfc df) r.
Proof.
  intros op sfc df s t r T1 T2 RS O ST TT B ND OP L E. unfold LiftSseCvt. fx.
  replace (match df with FI => facet_Resolve FI w0 | _ => df end) with df by (destruct df; try reflexivity; contradiction).
  rewrite RS. unfold felt. rewrite T1, T2. replace (tsize (TVec 2 t) =? 64) with true by (cbn [tsize]; lia). rewrite <- OP.
  apply ovec_some in E. destruct E as [D ->].
  eapply rm1_vec; [exact HA|exact GB|exact C|exact N|rewrite RS; exact T1|rewrite RS; exact O|exact L| |lia|lia|lia|].
  - apply (f_half c (TVec 2 s) b _ t); [lia|]. apply (f_fop1 c op 2 s t b); [exact ST|exact TT|lia|]. intros k K. apply D. lia.
  - rewrite B. symmetry. apply half_vec.
Qed.
Lemma L_cvt_sc : forall op sfc df s t r, facet_type (facet_Resolve sfc (q_bits (i_op1 i))) = s -> okf (facet_Resolve sfc (q_bits (i_op1 i))) = true ->
  sf df t -> stype s = true -> op = cast_op s t -> ldok g (i_op1 i) s ANone ->
  option_map (low (tsize t) a) (fop op s t [U (tsize s) b]) = Some r -> Goal (LiftSseCvt c cfg kc i sfc df) r.
Proof.
  intros op sfc df s t r T1 O F ST OP L E. unfold LiftSseCvt. fx.
  replace (match df with FI => facet_Resolve FI w0 | _ => df end) with df by (destruct F as [[-> ->]|[-> ->]]; reflexivity).
  destruct (sf_res df t 0 F) as (_ & _ & TD & FW). rewrite TD.
  replace (felt (facet_Resolve sfc (q_bits (i_op1 i)))) with s by (unfold felt; rewrite T1; destruct s; try discriminate ST; reflexivity).
  replace (felt df) with t by (destruct F as [[-> ->]|[-> ->]]; reflexivity). rewrite <- OP.
  destruct (fop op s t _) as [z|] eqn:Z1; [|discriminate]. injection E as <-. pose proof (ftype_stype t (sf_ftype df t F)) as TT.
  rewrite <- (fw_tsize s ST) in Z1.
  assert (X : Goal (qload 1 (i_op1 i) sfc ANone ++ qstore (QX w0 d) t (E1 (OFp1 op t) v1) AImp) (low (tsize t) a z)).
  { eapply sc1; [exact O|exact T1|exact L|eapply s_fop1; [exact ST|exact TT|exact Z1]| |eapply fop_inr; [exact TT|exact Z1]].
    destruct F as [[-> ->]|[-> ->]]; cbn; lia. }
  destruct F as [[-> ->]|[-> ->]]; exact X.
Qed.

(** Insertions. *)
Lemma L_insertps : forall imm, q_imm (i_op2 i) = imm -> q_isimm (i_op1 i) = false ->
  ldok g (i_op1 i) (if q_isreg (i_op1 i) then TVec 4 TF32 else TF32) ANone ->
  Goal (LiftSseInsertps c cfg kc i)
    (v128 32 (fun k => if Z.odd (U 8 imm / 2 ^ k) then 0 else if k =? (U 8 imm / 16) mod 4 then Ln 32 b (if negb (q_isreg (i_op1 i)) then 0 else (U 8 imm / 64) mod 4) else Ln 32 a k)).
Proof.
  intros imm EI NI L. unfold LiftSseInsertps. fx. rewrite EI.
  pose proof (field_spec imm 6 2 ltac:(lia) ltac:(lia) ltac:(lia)) as F1. pose proof (field_spec imm 4 2 ltac:(lia) ltac:(lia) ltac:(lia)) as F2.
  change (2 ^ 2 - 1) with 3 in F1, F2. change (2 ^ 2) with 4 in F1, F2. change (2 ^ 6) with 64 in F1. change (2 ^ 4) with 16 in F2. rewrite F1, F2.
  assert (R1 : 0 <= (U 8 imm / 64) mod 4 < 4) by (apply Z.mod_pos_bound; lia).
  assert (R2 : 0 <= (U 8 imm / 16) mod 4 < 4) by (apply Z.mod_pos_bound; lia).
  set (cs := (U 8 imm / 64) mod 4) in *. set (cd := (U 8 imm / 16) mod 4) in *. set (reg := q_isreg (i_op1 i)) in *.
  set (t2 := if reg then TVec 4 TF32 else TF32) in *.
  set (e := Ln 32 b (if negb reg then 0 else cs)).
  set (ins := if reg then E2 (OInsert cd) v1 (E1 (OExtract cs) v2) else E2 (OInsert cd) v1 v2).
  assert (INS : vres c (TVec 4 TF32) t2 a b ins 4 TF32 (fun k => if k =? cd then e else Ln 32 a k)).
  { intros vs' V1 V2. unfold ins, e, t2 in *. destruct reg; cbn [negb].
    - eapply (pvec_insert c vs' cd v1 (E1 (OExtract cs) v2) 4 TF32 (Ln 32 a)); [pv1| |cbn; lia|apply Ln_inr; lia|lia].
      apply (pv_extract c vs' cs v2 4 TF32 (Ln 32 b)); [pv1|cbn; lia|lia].
    - eapply pvec_ext; [eapply (pvec_insert c vs' cd v1 v2 4 TF32 (Ln 32 a)); [pv1|apply pv_var; exact V2|cbn; lia|apply trunc_inr; cbn; lia|lia]|lia|].
      intros k K. cbn beta. destruct (k =? cd); [|reflexivity]. unfold Ln. rewrite Z.mul_0_r. change (2 ^ 0) with 1. rewrite Z.div_1_r. reflexivity. }
  assert (TB : forall k, 0 <= k < 4 -> Z.testbit (Z.land imm 15) k = Z.odd (U 8 imm / 2 ^ k)).
  { intros k K. rewrite Z.land_spec. replace (Z.testbit 15 k) with true by (kcase k K 4; reflexivity). rewrite andb_true_r.
    rewrite <- (odd_field imm k) by lia. rewrite <- Z.bit0_odd, Z.shiftr_spec by lia. f_equal. }
  set (zm := Z.land imm 15) in *.
  set (res := if zm =? 0 then ins else _).
  assert (RES : vres c (TVec 4 TF32) t2 a b res 4 TF32 (fun k => if Z.odd (U 8 imm / 2 ^ k) then 0 else if k =? cd then e else Ln 32 a k)).
  { intros vs' V1 V2. unfold res. destruct (Z.eqb_spec zm 0) as [Z0|Z0].
    - eapply pvec_ext; [apply INS; assumption|lia|]. intros k K. cbn beta. rewrite <- TB by lia. rewrite Z0, Z.bits_0. reflexivity.
    - eapply pvec_ext; [apply (pvec_shufm c vs' 4 (fun k => if Z.testbit zm k then 4 else k) ins (eNull (TVec 4 TF32)) 4 TF32 (fun k => if k =? cd then e else Ln 32 a k) (fun _ => 0))|lia|].
      + apply INS; assumption.
      + apply pvec_null. cbn; lia.
      + cbn; lia.
      + lia.
      + intros k K. cbn beta. destruct (Z.testbit zm k); lia.
      + intros k K. cbn beta. rewrite <- TB by lia. destruct (Z.testbit zm k); [reflexivity|]. replace (k <? 4) with true by lia. reflexivity. }
  assert (T2 : facet_type (facet_Resolve (if reg then V4F32 else F32) (q_bits (i_op1 i))) = t2) by (unfold t2; destruct reg; reflexivity).
  unfold v128. eapply rm2_vec; [exact HA|exact GB|exact C|exact N|reflexivity|reflexivity|exact T2|destruct reg; reflexivity|exact L|exact RES|lia|cbn; lia|reflexivity|reflexivity].
Qed.
Lemma L_pinsr : forall vfc sfc n w bits mask imm, w0 = 128 -> ve vfc n (TInt w) -> facet_type sfc = TInt w -> (forall x, facet_Resolve sfc x = sfc) -> okf sfc = true ->
  q_imm (i_op2 i) = imm -> n = 2 ^ bits -> 0 <= bits <= 8 -> mask = 2 ^ bits - 1 -> ldok g (i_op1 i) (TInt w) ANone ->
  Goal (LiftSsePinsr c cfg kc i vfc sfc mask) (v128 w (fun k => if k =? U 8 imm mod n then U w b else Ln w a k)).
Proof.
  intros vfc sfc n w bits mask imm W0 V T2 RS O EI NB B M L. unfold LiftSsePinsr. fx. subst w0. rewrite EI, M, land_mod, U8_mod by lia.
  destruct (ve_n _ _ _ V) as (NW & PN & PW & _). destruct V as (T & O1 & EN & _). rewrite T. cbn [tsize] in *. rewrite <- NB.
  assert (R : 0 <= U 8 imm mod n < n) by (apply Z.mod_pos_bound; lia).
  eapply rm2_vec; [exact HA|exact GB|exact C|exact N|exact T|exact O1|rewrite RS; exact T2|rewrite RS; exact O|exact L|apply (f_insert c (U 8 imm mod n) n (TInt w) a b); [cbn [tsize]; lia|exact R]|lia|cbn [tsize]; lia|cbn [tsize]; lia|].
  unfold v128. rewrite <- EN. reflexivity.
Qed.
(** MOVDDUP: the source is read as one or two lanes. *)
Lemma L_movddup : forall n, n = 1 \/ n = 2 -> q_bits (i_op1 i) = 64 * n -> ldok g (i_op1 i) (TVec n TF64) AMax ->
  Goal (LiftSseMovdup c cfg kc i VF64 0) (v128 64 (fun _ => Ln 64 b 0)).
Proof.
  intros n Hn QB L. unfold LiftSseMovdup. fx. rewrite QB.
  replace (fw (facet_Resolve VF64 (64 * n))) with 64 by (destruct Hn as [-> | ->]; reflexivity).
  replace (felt (facet_Resolve VF64 (64 * n))) with TF64 by (destruct Hn as [-> | ->]; reflexivity).
  change (128 / 64) with 2.
  assert (X : forall k, 0 <= k < 2 -> Z.land k 254 + 0 = 0) by (intros k K; kcase k K 2; reflexivity).
  eapply rm1_vec; [exact HA|exact GB|exact C|exact N| | |exact L|apply (f_shuf1 c 2 (fun k => Z.land k 254 + 0) n TF64 b); sd|lia|sd|reflexivity|].
  - rewrite QB. destruct Hn as [-> | ->]; reflexivity.
  - rewrite QB. destruct Hn as [-> | ->]; reflexivity.
  - unfold v128. cbn [tsize]. apply (vec_ext 64 _ _ (Z.to_nat 2)). intros k K. rewrite X by lia. reflexivity.
Qed.

(** Shifts. *)
Definition shsem (op : binop) (w : Z) (F : Z -> Z -> Z) (big : Z -> Z) : Prop :=
  (op = Shl /\ (forall x k, F x k = U w (x * 2 ^ k)) /\ big = (fun _ => 0)) \/
  (op = LShr /\ (forall x k, F x k = x / 2 ^ k) /\ big = (fun _ => 0)) \/
  (op = AShr /\ (forall x k, F x k = U w (S_ w x / 2 ^ k)) /\ big = (fun x => mask_if w (S_ w x <? 0))).
Lemma L_shift : forall op F big f n w, w0 = 128 -> shsem op w F big -> ve f n (TInt w) ->
  ldok g (i_op1 i) (TInt 64) ANone \/ (exists x v, i_op1 i = QI x v /\ -128 <= v < 256) ->
  Goal (LiftSsePshiftElement c cfg kc i op f) (eshift w w (U 64 b) (fun x => F x (U 64 b)) big a).
Proof.
  intros op F big f n w W0 SH VE SRC. unfold LiftSsePshiftElement. fx. subst w0.
  destruct (ve_n _ _ _ VE) as (NW & PN & PW & _). rewrite (ve_fcnt _ _ _ VE), (ve_fw _ _ _ VE). pose proof VE as (T & O1 & EN & _). cbn [tsize] in *.
  set (dst := qstore _ _ _ _).
  assert (K : forall vs' s, vs' 1%nat = Some (V (TVec n (TInt w)) (trunc (tsize (TVec n (TInt w))) a)) -> inr 64 s -> vs' 2%nat = Some (V (TInt 64) s) ->
     (s = U 64 b \/ (w <= s /\ w <= U 64 b)) ->
     Zt g vs' rt dst (zdone (set_q g d (eshift w w (U 64 b) (fun x => F x (U 64 b)) big a)) rt)).
  { intros vs' s V1 IS V2 SB. unfold dst. rewrite <- (app_nil_r (qstore _ _ _ _)).
    assert (E : vres c (TV n w) (TInt 64) a s (shift_exp op n w) n (TInt w) (fun k => if s <? w then F (Ln w a k) s else big (Ln w a k))).
    { apply f_shift; [exact SH|lia|lia|exact IS]. }
    assert (V2' : vs' 2%nat = Some (V (TInt 64) (trunc (tsize (TInt 64)) s))) by (cbn [tsize]; rewrite trunc_small by exact IS; exact V2).
    pose proof (E vs' V1 V2') as [P PI].
    eapply Zt_put; [exact HA|exact N|exact P| |eapply Zt_nil; exact C].
    unfold TV. split; [|left; split; [cbn [tsize]; lia|]].
    - replace (tsize (TVec n (TInt w))) with (w * Z.of_nat (Z.to_nat n)) by (cbn [tsize]; lia). cbn [tsize] in *. apply vec_inr; [lia|]. intros k K. apply PI. lia.
    - unfold eshift, v128. rewrite <- EN. cbn [tsize]. apply vec_ext. intros k K. destruct SB as [->|[B1 B2]]; [reflexivity|].
      replace (s <? w) with false by lia. replace (U 64 b <? w) with false by lia. reflexivity. }
  destruct SRC as [L|(x & v & I1 & RV)].
  - replace (q_isimm (i_op1 i)) with false by (destruct (i_op1 i); try reflexivity; contradiction L).
    eapply Zt_load; [exact GB|exact C|exact O1|exact N|]. cbn zeta. eapply Zt_load; [exact GB|exact C|reflexivity|exact L|]. cbn zeta.
    apply (K _ (U 64 b)); [cbn [q_bits]; rewrite T; reflexivity|apply trunc_inr; lia|reflexivity|left; reflexivity].
  - rewrite I1 in *. cbn [q_isimm q_imm s_val] in *.
    eapply Zt_load; [exact GB|exact C|exact O1|exact N|]. cbn zeta. cbn [A1 map app].
    eapply Zt_let; [intros s _; reflexivity|]. cbn [tsize].
    assert (X : U 64 (U 8 v) = U 8 v). { unfold U. change (2 ^ 64) with 18446744073709551616. change (2 ^ 8) with 256. lia. }
    apply (K _ (trunc 64 v)); [cbn [q_bits]; rewrite T; reflexivity|apply trunc_inr; lia|reflexivity|]. rewrite X.
    destruct (Z.ltb_spec v 0); [right|left]; unfold trunc, U; change (2 ^ 64) with 18446744073709551616; change (2 ^ 8) with 256; lia.
Qed.
Lemma L_shiftb : forall x v, i_op1 i = QI x v -> -128 <= v < 256 ->
  Goal (LiftSsePshiftBytes c cfg kc i)
    (match i_mn i with S_PSRLDQ => if U 8 b <? 16 then a / 2 ^ (8 * U 8 b) else 0
                     | _ => if U 8 b <? 16 then U 128 (a * 2 ^ (8 * U 8 b)) else 0 end).
Proof.
  intros x v I1 RV. unfold LiftSsePshiftBytes. fx. rewrite I1. cbn [q_imm s_val].
  replace (U 8 (U 8 v)) with (U 8 v) by (unfold U; rewrite Z.mod_mod by (cbn; lia); reflexivity).
  set (sh := Z.min (trunc 32 v) 16).
  assert (TI : 0 <= sh <= 16 /\ (sh < 16 /\ U 8 v = sh \/ sh = 16 /\ 16 <= U 8 v)).
  { unfold sh, trunc, U. change (2 ^ 32) with 4294967296. change (2 ^ 8) with 256. lia. }
  assert (HI : forall k, 16 <= k -> Ln 8 a k = 0). { intros k K. apply (Ln_high 8 16); [lia|lia|exact IA]. }
  assert (PUT : forall e h r, vres1 c (TV 16 8) a e 16 (TInt 8) h -> r = vec 8 h (Z.to_nat 16) ->
     Goal (qload 1 (QX w0 d) V16I8 ANone ++ qstore (QX w0 d) (TV 16 8) e AImp) r).
  { intros e h r E R. exact (rm1_vec c cfg HA GB kc pc g vs rt w0 d (QX w0 d) V16I8 ANone (TV 16 8) e AImp 16 (TInt 8) h r C N eq_refl eq_refl N E ltac:(lia) ltac:(cbn; lia) eq_refl R). }
  assert (R0 : 0 = vec 8 (fun _ => 0) (Z.to_nat 16)) by (symmetry; apply vec0).
  assert (RR : forall k, 0 <= k < 16 -> (if k + sh <? 16 then Ln 8 a (k + sh) else 0) = Ln 8 (if U 8 v <? 16 then a / 2 ^ (8 * U 8 v) else 0) k).
  { intros k K. destruct (Z.ltb_spec (U 8 v) 16).
    - replace (U 8 v) with sh by lia. rewrite Ln_shr by lia. destruct (Z.ltb_spec (k + sh) 16); [reflexivity|symmetry; apply HI; lia].
    - replace (k + sh <? 16) with false by lia. unfold Ln. rewrite Z.div_0_l by (apply Z.pow_nonzero; lia). reflexivity. }
  assert (RL : forall k, 0 <= k < 16 -> (if k + (16 - sh) <? 16 then 0 else Ln 8 a (k + (16 - sh) - 16)) = Ln 8 (if U 8 v <? 16 then U 128 (a * 2 ^ (8 * U 8 v)) else 0) k).
  { intros k K. destruct (Z.ltb_spec (U 8 v) 16).
    - replace (U 8 v) with sh by lia. unfold U. rewrite Ln_trunc by lia. rewrite Ln_shl by lia.
      replace (k + (16 - sh) <? 16) with (k <? sh) by lia. destruct (k <? sh); [reflexivity|f_equal; lia].
    - replace (k + (16 - sh) <? 16) with true by lia. unfold Ln. rewrite Z.div_0_l by (apply Z.pow_nonzero; lia). reflexivity. }
  assert (IN1 : inr 128 (if U 8 v <? 16 then a / 2 ^ (8 * U 8 v) else 0)).
  { destruct (Z.ltb_spec (U 8 v) 16); [apply div_inr; [lia|unfold U; pose proof (Z.mod_pos_bound v (2 ^ 8) ltac:(cbn; lia)); lia|exact IA]|unfold inr; cbn; lia]. }
  assert (IN2 : inr 128 (if U 8 v <? 16 then U 128 (a * 2 ^ (8 * U 8 v)) else 0)).
  { destruct (Z.ltb_spec (U 8 v) 16); [apply trunc_inr; lia|unfold inr; cbn; lia]. }
  assert (LEFT : Goal (qload 1 (QX w0 d) V16I8 ANone ++ qstore (QX w0 d) (TV 16 8) (eShuf (map (fun k => k + (16 - sh)) (zseq 16)) (eNull (TV 16 8)) v1) AImp)
     (if U 8 v <? 16 then U 128 (a * 2 ^ (8 * U 8 v)) else 0)).
  { eapply PUT; [apply (f_shufz' c 16 (fun k => k + (16 - sh)) 16 (TInt 8) a); sd; intros k K; lia|].
    symmetry. apply vec_is; [lia|exact RL|exact IN2]. }
  destruct (i_mn i); try exact LEFT.
  eapply PUT; [apply (f_shufz c 16 (fun k => k + sh) 16 (TInt 8) a); sd; intros k K; lia|].
  symmetry. apply vec_is; [lia|exact RR|exact IN1].
Qed.

(** Widening. *)
Lemma L_sext : forall from to n w w', facet_type from = TV n w -> facet_type to = TV n w' -> (forall x, facet_Resolve from x = from) -> okf from = true ->
  n * w' = 128 -> 0 < w < w' -> 0 <= n -> ldok g (i_op1 i) (TV n w) ANone ->
  Goal (LiftSsePmovx c cfg kc i CSExt from to) (vec w' (fun k => U w' (S_ w (Ln w b k))) (Z.to_nat n)).
Proof.
  intros from to n w w' T1 T2 RS O B W PN L. unfold LiftSsePmovx. fx. rewrite T2.
  eapply rm1_vec; [exact HA|exact GB|exact C|exact N|rewrite RS; exact T1|rewrite RS; exact O|exact L|apply (f_sext c n w w' b); lia|lia|cbn [tsize]; lia|cbn [tsize]; lia|reflexivity].
Qed.
Lemma L_zext : forall from to n w w', facet_type from = TV n w -> facet_type to = TV n w' -> (forall x, facet_Resolve from x = from) -> okf from = true ->
  n * w' = 128 -> 0 < w < w' -> 0 <= n -> ldok g (i_op1 i) (TV n w) ANone ->
  Goal (LiftSsePmovx c cfg kc i CZExt from to) (vec w' (Ln w b) (Z.to_nat n)).
Proof.
  intros from to n w w' T1 T2 RS O B W PN L. unfold LiftSsePmovx. fx. rewrite T2.
  eapply rm1_vec; [exact HA|exact GB|exact C|exact N|rewrite RS; exact T1|rewrite RS; exact O|exact L|apply (f_zext c n w w' b); lia|lia|cbn [tsize]; lia|cbn [tsize]; lia|reflexivity].
Qed.

(** Moves to XMM registers. *)
Lemma L_movq : forall f w, f = I32 /\ w = 32 \/ f = I64 /\ w = 64 -> ldok g (i_op1 i) (TInt w) ANone -> Goal (LiftSseMovq c cfg kc i f) (U w b).
Proof.
  intros f w F L. unfold LiftSseMovq. fx. cbn [q_isvec].
  destruct F as [[-> ->]|[-> ->]].
  - eapply rm1_vec; [exact HA|exact GB|exact C|exact N|reflexivity|reflexivity|exact L|apply (f_ins0 c 4 (TInt 32) b); sd|discriminate|discriminate|reflexivity|].
    symmetry. apply (vec_first 32 (trunc 32 b) 3).
  - eapply rm1_vec; [exact HA|exact GB|exact C|exact N|reflexivity|reflexivity|exact L|apply (f_ins0 c 2 (TInt 64) b); sd|discriminate|discriminate|reflexivity|].
    symmetry. apply (vec_first 64 (trunc 64 b) 1).
Qed.
Lemma L_movs : forall f w, f = I32 /\ w = 32 \/ f = I64 /\ w = 64 -> ldok g (i_op1 i) (TInt w) ANone ->
  Goal (LiftSseMovScalar c cfg kc i f) (if q_ismem (i_op1 i) then U w b else low w a b).
Proof.
  intros f w F L. unfold LiftSseMovScalar. fx.
  assert (FW : facet_type f = TInt w /\ okf f = true /\ (forall x, facet_Resolve f x = f) /\ facet_size f = w /\ (128 / w) * w = 128 /\ (w = 32 \/ w = 64)) by (destruct F as [[-> ->]|[-> ->]]; repeat split; auto).
  destruct FW as (FT & O & RS & FS & W128 & W). rewrite FT, FS.
  assert (LL : low w a (trunc w b) = low w a b). { unfold low, trunc. rewrite Z.mod_mod by (apply Z.pow_nonzero; lia). reflexivity. }
  destruct (q_ismem (i_op1 i)).
  - eapply Zt_load; [exact GB|exact C|rewrite RS; exact O|rewrite RS, FT; exact L|]. cbn zeta. rewrite RS, FT.
    eapply Zt_put with (r := 0); [exact HA|exact N|apply pv_const| |].
    + assert (TS : tsize (TV (128 / w) w) = 128) by exact W128. unfold stored. rewrite TS. split; [apply trunc_inr; lia|left; split; reflexivity].
    + rewrite <- (app_nil_r (qstore _ _ _ _)).
      eapply Zt_put with (r := U w b); [exact HA|exact N|apply pv_var; reflexivity| |].
      * cbn [set_q z_q]. rewrite Z.eqb_refl. split; [apply trunc_inr; cbn [tsize]; lia|right]. cbn [tsize]. split; [lia|].
        unfold low. rewrite Z.mod_0_l by (apply Z.pow_nonzero; lia). unfold trunc. rewrite Z.mod_mod by (apply Z.pow_nonzero; lia). unfold U. lia.
      * intros s (R & P & VS & RT). exists s. split; [reflexivity|]. split; [|split].
        -- destruct R as [RX RQ]. split; [exact RX|]. intros q Q. specialize (RQ q Q). cbn [set_q z_q] in *. destruct (q =? d); exact RQ.
        -- rewrite P. exact (PCV c kc pc g C).
        -- exact RT.
  - cbn [app]. rewrite <- LL.
    eapply sc1; [rewrite RS; exact O|rewrite RS; exact FT|exact L|apply s_var|cbn [tsize]; lia|apply trunc_inr; cbn [tsize]; lia].
Qed.
Lemma whole128 : forall f a1 al, okf f = true -> (forall x, facet_Resolve f x = f) -> tsize (facet_type f) = 128 -> ldok g (i_op1 i) (facet_type f) a1 -> inr 128 b ->
  Goal (qload 1 (i_op1 i) f a1 ++ qstore (QX w0 d) (facet_type f) v1 al) b.
Proof.
  intros f a1 al O RS S L IB. eapply rm1_ok; [exact HA|exact GB|exact C|exact N|rewrite RS; exact O|rewrite RS; exact L|rewrite RS; apply s_var|].
  split; [rewrite S; apply trunc_inr; lia|left; split; [exact S|]]. rewrite S. symmetry. apply trunc_small. exact IB.
Qed.
Lemma L_movdq : forall f al, okf f = true -> (forall x, facet_Resolve f x = f) -> tsize (facet_type f) = 128 -> ldok g (i_op1 i) (facet_type f) al -> inr 128 b ->
  Goal (LiftSseMovdq c cfg kc i f al) b.
Proof. intros f al O RS S L IB. unfold LiftSseMovdq. fx. apply whole128; assumption. Qed.
Lemma low_trunc : forall w x y, 0 <= w -> low w x (trunc w y) = low w x y.
Proof. intros w x y W. unfold low, trunc. rewrite Z.mod_mod by (apply Z.pow_nonzero; lia). reflexivity. Qed.
Lemma L_movlp : i_mn i = S_MOVLPS \/ i_mn i = S_MOVLPD -> q_isreg (i_op1 i) = false -> ldok g (i_op1 i) (TVec 2 TF32) ANone -> ldok g (i_op1 i) TF64 ANone ->
  Goal (LiftSseMovlp c cfg kc i) (low 64 a b).
Proof.
  intros M R L1 L2. unfold LiftSseMovlp. fx. rewrite R. cbn [q_isreg andb]. rewrite <- (low_trunc 64 a b) by lia.
  destruct M as [-> | ->].
  - apply (sc1 V2F32 (TVec 2 TF32)); [reflexivity|reflexivity|exact L1|apply s_var|cbn; lia|apply trunc_inr; cbn; lia].
  - apply (sc1 F64 TF64); [reflexivity|reflexivity|exact L2|apply s_var|cbn; lia|apply trunc_inr; cbn; lia].
Qed.
Lemma hi2_val : forall z, val1 c (TVec 4 TF32) z (eShuf [2; 3] v1 (eNull (TVec 4 TF32))) (TVec 2 TF32) (Ln 64 z 1).
Proof.
  intros z vs' V1. pose proof (f_shufz c 2 (fun k => k + 2) 4 TF32 z ltac:(cbn; lia) ltac:(lia) ltac:(lia) ltac:(intros; lia) vs' V1) as [P _].
  replace (Ln 64 z 1) with (vec (tsize TF32) (fun k => if k + 2 <? 4 then Ln (tsize TF32) z (k + 2) else 0) (Z.to_nat 2)); [exact P|].
  cbn [tsize]. apply vec_is; [lia| |apply (Ln_inr 64); lia]. intros k K.
  replace (k + 2 <? 4) with true by lia.
  apply (bits_eq 32); [lia|apply Ln_inr; lia|apply Ln_inr; lia|]. intros j J. rewrite !Ln_bit by lia. f_equal. lia.
Qed.
Lemma L_movhlps : i_mn i = S_MOVHLPS -> q_isreg (i_op1 i) = true -> ldok g (i_op1 i) (TVec 4 TF32) ANone -> Goal (LiftSseMovlp c cfg kc i) (low 64 a (Ln 64 b 1)).
Proof.
  intros M R L. unfold LiftSseMovlp. fx. rewrite R, M. cbn [q_isreg andb].
  apply (sc1 V4F32 (TVec 4 TF32)); [reflexivity|reflexivity|exact L|apply hi2_val|cbn; lia|apply (Ln_inr 64); lia].
Qed.
Lemma hilo : forall w n z, 0 < w -> w * n = 64 -> 0 <= n -> inr 64 (z mod 2 ^ 64) ->
  forall k, 0 <= k < 2 * n -> Ln w (U 64 a + U 64 z * 2 ^ 64) k = if k <? n then Ln w a k else Ln w z (k - n).
Proof.
  intros w n z W NW PN IZ k K. rewrite Z.add_comm. replace (2 ^ 64) with (2 ^ (w * n)) by (f_equal; lia).
  rewrite Ln_add by (try lia; unfold inr, U; replace (w * n) with 64 by lia; apply Z.mod_pos_bound; cbn; lia).
  unfold U. destruct (Z.ltb_spec k n); apply Ln_trunc; nia.
Qed.
Lemma hilo_inr : forall z, inr 128 (U 64 a + U 64 z * 2 ^ 64).
Proof.
  intros z. unfold U, inr. pose proof (Z.mod_pos_bound a (2 ^ 64) ltac:(cbn; lia)). pose proof (Z.mod_pos_bound z (2 ^ 64) ltac:(cbn; lia)).
  change (2 ^ 128) with (2 ^ 64 * 2 ^ 64). nia.
Qed.
Lemma L_movhps : ldok g (i_op1 i) (TVec 2 TF32) ANone -> Goal (LiftSseMovhps c cfg kc i) (U 64 a + U 64 b * 2 ^ 64).
Proof.
  intros L. unfold LiftSseMovhps. fx. cbn [q_ismem].
  eapply rm2_vec with (h := fun k => if k <? 2 then Ln 32 a k else Ln 32 b (k - 2)); [exact HA|exact GB|exact C|exact N|reflexivity|reflexivity|reflexivity|reflexivity|exact L| |lia|cbn; lia|reflexivity|].
  - intros vs' V1 V2.
    assert (E2 : pvec c vs' (eShuf [0; 1; 2; 3] v2 (eNull (TVec 2 TF32))) 4 TF32 (fun k => if k <? 2 then Ln 32 b k else 0)).
    { apply (pvec_shufm c vs' 4 (fun k => k) v2 (eNull (TVec 2 TF32)) 2 TF32 (Ln 32 b) (fun _ => 0)); [pv1|pv1|cbn; lia|lia|intros; lia]. }
    eapply pvec_ext.
    + apply (pvec_shufm c vs' 4 (fun k => if k <? 2 then k else k + 2) v1 _ 4 TF32 (Ln 32 a) _ ltac:(pv1) E2); [cbn; lia|lia|].
      intros k K. destruct (Z.ltb_spec k 2); lia.
    + lia.
    + intros k K. cbn beta. destruct (Z.ltb_spec k 2); [replace (k <? 4) with true by lia; reflexivity|].
      replace (k + 2 <? 4) with false by lia. replace (k + 2 - 4 <? 2) with true by lia. f_equal. lia.
  - symmetry. apply vec_is; [cbn; lia| |exact (hilo_inr b)]. intros k K. cbn [tsize].
    rewrite (hilo 32 2) by (try lia; apply Z.mod_pos_bound; cbn; lia). reflexivity.
Qed.
Lemma L_movhpd : ldok g (i_op1 i) TF64 ANone -> Goal (LiftSseMovhpd c cfg kc i) (U 64 a + U 64 b * 2 ^ 64).
Proof.
  intros L. unfold LiftSseMovhpd. fx. cbn [q_ismem].
  eapply rm2_vec; [exact HA|exact GB|exact C|exact N|reflexivity|reflexivity|reflexivity|reflexivity|exact L|apply (f_insert c 1 2 TF64 a b); cbn; lia|lia|cbn; lia|reflexivity|].
  symmetry. apply vec_is; [cbn; lia| |exact (hilo_inr b)]. intros k K. cbn [tsize].
  rewrite (hilo 64 1) by (try lia; apply Z.mod_pos_bound; cbn; lia).
  destruct (Z.eqb_spec k 1) as [->|X].
  - cbn [Z.ltb Z.compare Pos.compare Pos.compare_cont Z.sub Z.add Z.opp Z.pos_sub]. unfold Ln, trunc. rewrite Z.mul_0_r. change (2 ^ 0) with 1. rewrite Z.div_1_r. reflexivity.
  - replace (k <? 1) with true by lia. reflexivity.
Qed.
End Mixed.
End Step.
