(** Lifted SSE instructions against the specification, one lemma per lifter
    function. *)

From Coq Require Import ZArith Lia ZifyBool List Bool.
From Verif Require Import Bits IR Facet Dsl Rv64 Rv64Spec Rv64Sim Rv64Arith X86 X86Spec X86Arith X86Sim X86Ops X86Sse X86SseSpec X86SseVec X86SseSim X86SseOps X86SseOps2 X86SseOps3 X86SseOps4.
Import ListNotations.
Open Scope Z_scope.
Ltac Zify.zify_post_hook ::= Z.div_mod_to_equations.

(** A memory operand has an address that is a multiple of [k]. *)
Definition mem_al (k : Z) (g : zst) (o : sop) : Prop := match o with QM _ m => ea (z_x g) m mod k = 0 | _ => True end.
Lemma mem_al_1 : forall g o, mem_al 1 g o.
Proof. intros g []; cbn [mem_al]; auto. apply Z.mod_1_r. Qed.
(** A vector facet of 128 bits. *)
Definition el (s : ty) : bool :=
  match s with TInt w => (w =? 8) || (w =? 16) || (w =? 32) || (w =? 64) | TF32 | TF64 => true | _ => false end.
Definition ve (f : facet) (n : Z) (s : ty) : Prop :=
  facet_type (facet_Resolve f 128) = TVec n s /\ okf (facet_Resolve f 128) = true /\ n = 128 / tsize s /\ el s = true.
Lemma ve_n : forall f n s, ve f n s -> n * tsize s = 128 /\ 0 < n /\ 8 <= tsize s <= 64 /\ n mod 2 = 0 /\ n / 2 = 64 / tsize s.
Proof.
  intros f n s (_ & _ & -> & E). destruct s as [w| | | |]; try discriminate E; try (cbn; lia).
  cbn [el] in E. assert (X : w = 8 \/ w = 16 \/ w = 32 \/ w = 64) by lia. destruct X as [->|[->|[->| ->]]]; cbn; lia.
Qed.
Lemma ve_fcnt : forall f n w, ve f n w -> fcnt (facet_Resolve f 128) = n.
Proof. intros f n w (T & _). unfold fcnt. rewrite T. reflexivity. Qed.
Lemma ve_fw : forall f n s, ve f n s -> fw (facet_Resolve f 128) = tsize s.
Proof. intros f n w (T & _). unfold fw, felt. rewrite T. reflexivity. Qed.
Lemma ve_felt : forall f n s, ve f n s -> felt (facet_Resolve f 128) = s.
Proof. intros f n w (T & _). unfold felt. rewrite T. reflexivity. Qed.
Lemma vec_whole : forall n w z, 0 <= n -> 0 <= w -> n * w = 128 -> inr 128 z -> z = vec w (Ln w z) (Z.to_nat n).
Proof.
  intros n w z PN PW NW I. symmetry. apply vec_is; [lia|reflexivity|]. replace (w * Z.of_nat (Z.to_nat n)) with 128 by lia. exact I.
Qed.
Lemma cmp_pred_some : forall imm, 0 <= imm < 8 -> exists p, cmp_pred imm = Some p.
Proof.
  intros imm B. assert (CC : imm = 0 \/ imm = 1 \/ imm = 2 \/ imm = 3 \/ imm = 4 \/ imm = 5 \/ imm = 6 \/ imm = 7) by lia.
  repeat (destruct CC as [->|CC]; [eexists; reflexivity|]). subst imm. eexists; reflexivity.
Qed.
(** Addition and subtraction of numbers never give poison. *)
Definition fpu_std `{FpuOps} (rel : ty -> Z -> Z -> option comparison) : Prop :=
  fcmp_std rel /\ forall f t a b, f = FAdd \/ f = FSub -> ftype t = true -> fpu_op f t t [a; b] <> None.

Section Step.
Context `{FpuOps}.
Variable c : cenv.
Variable cfg : xcfg.
Hypothesis HA : c_arch c = X86_64.
Hypothesis GB : gbase_ok c.
Variable kc : areg -> konst.
Variable pc : Z.
Notation Zt := (Zt c pc). Notation zdone := (zdone c). Notation ldok := (ldok cfg).
Notation qload := (qload c cfg kc). Notation qstore := (qstore c cfg kc). Notation gstore := (gstore c cfg kc).
Notation zctx := (zctx c kc pc).

Lemma rm2_vec : forall g vs rt w d o f0 f1 a0 a1 t1 t2 e al n t h r, zctx g -> okr d = true ->
  facet_type (facet_Resolve f0 w) = t1 -> okf (facet_Resolve f0 w) = true ->
  facet_type (facet_Resolve f1 (q_bits o)) = t2 -> okf (facet_Resolve f1 (q_bits o)) = true -> ldok g o t2 a1 ->
  vres c t1 t2 (z_q g d) (s_val g o) e n t h -> 0 <= n -> 0 <= tsize t -> n * tsize t = 128 -> r = vec (tsize t) h (Z.to_nat n) ->
  Zt g vs rt (qload 1 (QX w d) f0 a0 ++ qload 2 o f1 a1 ++ qstore (QX w d) (TVec n t) e al) (zdone (set_q g d r) rt).
Proof.
  intros g vs rt w d o f0 f1 a0 a1 t1 t2 e al n t h r C N T1 O1 T2 O2 L E PN PT B R. subst t1 t2.
  eapply rm2_ok; try eassumption; [intros vs' V1 V2; exact (proj1 (E vs' V1 V2))|].
  split; [|left; split; [cbn [tsize]; exact B|exact R]].
  replace (tsize (TVec n t)) with (tsize t * Z.of_nat (Z.to_nat n)) by (cbn [tsize]; lia).
  apply vec_inr; [exact PT|]. intros k K. eapply vres_inr; [exact E|lia].
Qed.
Lemma rm2s_vec : forall g vs rt w d o f0 f1 a0 a1 t1 t2 e al n t h r, zctx g -> okr d = true ->
  facet_type (facet_Resolve f0 w) = t1 -> okf (facet_Resolve f0 w) = true ->
  facet_type (facet_Resolve f1 (q_bits o)) = t2 -> okf (facet_Resolve f1 (q_bits o)) = true -> ldok g o t2 a1 ->
  vres c t2 t1 (s_val g o) (z_q g d) e n t h -> 0 <= n -> 0 <= tsize t -> n * tsize t = 128 -> r = vec (tsize t) h (Z.to_nat n) ->
  Zt g vs rt (qload 1 o f1 a1 ++ qload 2 (QX w d) f0 a0 ++ qstore (QX w d) (TVec n t) e al) (zdone (set_q g d r) rt).
Proof.
  intros g vs rt w d o f0 f1 a0 a1 t1 t2 e al n t h r C N T1 O1 T2 O2 L E PN PT B R. subst t1 t2.
  eapply rm2s_ok; try eassumption; [intros vs' V1 V2; exact (proj1 (E vs' V1 V2))|].
  split; [|left; split; [cbn [tsize]; exact B|exact R]].
  replace (tsize (TVec n t)) with (tsize t * Z.of_nat (Z.to_nat n)) by (cbn [tsize]; lia).
  apply vec_inr; [exact PT|]. intros k K. eapply vres_inr; [exact E|lia].
Qed.
Lemma rm1_vec : forall g vs rt w d o f1 a1 t1 e al n t h r, zctx g -> okr d = true ->
  facet_type (facet_Resolve f1 (q_bits o)) = t1 -> okf (facet_Resolve f1 (q_bits o)) = true -> ldok g o t1 a1 ->
  vres1 c t1 (s_val g o) e n t h -> 0 <= n -> 0 <= tsize t -> n * tsize t = 128 -> r = vec (tsize t) h (Z.to_nat n) ->
  Zt g vs rt (qload 1 o f1 a1 ++ qstore (QX w d) (TVec n t) e al) (zdone (set_q g d r) rt).
Proof.
  intros g vs rt w d o f1 a1 t1 e al n t h r C N T1 O1 L E PN PT B R. subst t1.
  eapply rm1_ok; try eassumption; [intros vs' V1; exact (proj1 (E vs' V1))|].
  split; [|left; split; [cbn [tsize]; exact B|exact R]].
  replace (tsize (TVec n t)) with (tsize t * Z.of_nat (Z.to_nat n)) by (cbn [tsize]; lia).
  apply vec_inr; [exact PT|]. intros k K. eapply vres1_inr; [exact E|lia].
Qed.
(** Loads of the source operand. *)
Lemma ld_src : forall g o t a W, s_okx o || s_okg o || s_okm W o = true -> good_q cfg o = true -> mem_al (aset t a false) g o -> tsize t <= W -> ldok g o t a.
Proof.
  intros g o t a W S G A L. destruct o as [|w n|w n|w m|w v]; cbn in *; try discriminate S.
  - rewrite !orb_false_r in S. exact S.
  - rewrite orb_false_r in S. exact S.
  - apply andb_true_iff in S. destruct S as [S1 S2]. repeat split; [exact S2|exact G|lia|exact A].
Qed.

(** *** Packed instructions "xmm, xmm/m128" *)
Section Packed.
Variable i : sinst.
Variable g : zst.
Variable d : Z.
Variable rt : bool.
Variable vs : nat -> option rv.
Hypothesis C : zctx g.
Hypothesis N : okr d = true.
Hypothesis I0 : i_op0 i = QX 128 d.
Hypothesis QB : q_bits (i_op1 i) = 128.
Hypothesis LD : forall t a, tsize t = 128 -> ldok g (i_op1 i) t a.
Hypothesis NG : match i_op1 i with QX _ _ | QM _ _ => True | _ => False end.
Hypothesis IB : inr 128 (s_val g (i_op1 i)).
Hypothesis IA : inr 128 (z_q g d).
Notation a := (z_q g d). Notation b := (s_val g (i_op1 i)).
Notation Goal l r := (Zt g vs rt l (zdone (set_q g d r) rt)).

Ltac fx := rewrite ?I0; cbn [q_bits]; rewrite ?I0; cbn [q_bits]; rewrite ?QB.
(** Two operands with facet [f] of type <n x iw>. *)
Lemma p2 : forall f n s a0 a1 e al t n' h r, ve f n s -> vres c (TVec n s) (TVec n s) a b e n' t h ->
  0 <= n' -> 0 <= tsize t -> n' * tsize t = 128 -> r = vec (tsize t) h (Z.to_nat n') ->
  Goal (qload 1 (QX 128 d) f a0 ++ qload 2 (i_op1 i) f a1 ++ qstore (QX 128 d) (TVec n' t) e al) r.
Proof.
  intros f n w a0 a1 e al t n' h r V E P P' B R. destruct (ve_n f n w V) as (NW & _). destruct V as (T & O & _). eapply rm2_vec; try eassumption; rewrite ?QB; try assumption.
  apply LD. exact NW.
Qed.
Lemma p2s : forall f n s a0 a1 e al t n' h r, ve f n s -> vres c (TVec n s) (TVec n s) b a e n' t h ->
  0 <= n' -> 0 <= tsize t -> n' * tsize t = 128 -> r = vec (tsize t) h (Z.to_nat n') ->
  Goal (qload 1 (i_op1 i) f a1 ++ qload 2 (QX 128 d) f a0 ++ qstore (QX 128 d) (TVec n' t) e al) r.
Proof.
  intros f n w a0 a1 e al t n' h r V E P P' B R. destruct (ve_n f n w V) as (NW & _). destruct V as (T & O & _). eapply rm2s_vec; try eassumption; rewrite ?QB; try assumption.
  apply LD. exact NW.
Qed.
Lemma p1 : forall f n s a1 w0 e al t n' h r, ve f n s -> vres1 c (TVec n s) b e n' t h ->
  0 <= n' -> 0 <= tsize t -> n' * tsize t = 128 -> r = vec (tsize t) h (Z.to_nat n') ->
  Goal (qload 1 (i_op1 i) f a1 ++ qstore (QX w0 d) (TVec n' t) e al) r.
Proof.
  intros f n w a1 w0 e al t n' h r V E P P' B R. destruct (ve_n f n w V) as (NW & _). destruct V as (T & O & _). eapply rm1_vec; try eassumption; rewrite ?QB; try assumption.
  apply LD. exact NW.
Qed.
(** Open the hypotheses about facet [f]. *)
Ltac vopen V T EN :=
  let NW := fresh "NW" in let PN := fresh "PN" in let PW := fresh "PW" in let M := fresh "MOD2" in let HN := fresh "HALF" in
  destruct (ve_n _ _ _ V) as (NW & PN & PW & M & HN); cbn [tsize] in NW, PW, HN; fx; rewrite ?(ve_fcnt _ _ _ V), ?(ve_fw _ _ _ V), ?(ve_felt _ _ _ V);
  pose proof V as (T & _ & EN & _); cbn [tsize] in EN; rewrite ?T; cbn [tsize].
Ltac sd := try (cbn [tsize]; lia).

Lemma L_arith : forall op F f n w, arith_op op = Some F -> ve f n (TInt w) -> Goal (LiftSseBinOp c cfg kc i op false f) (lanes2 w F a b).
Proof.
  intros op F f n w O V. unfold LiftSseBinOp. vopen V T EN.
  replace (negb false && _ && _ && _ && _) with false by (destruct op; try discriminate O; reflexivity).
  eapply p2; [exact V|apply (f_arith c op F n w a b O); lia|sd|sd|sd|]. rewrite EN. reflexivity.
Qed.
Lemma bit_inr : forall op F, bit_op op = Some F -> inr 128 (F a b).
Proof.
  intros op F O. destruct op; try discriminate O; injection O as <-.
  - apply land_inr_l; [lia|exact IA].
  - apply lor_inr; [lia|exact IA|exact IB].
  - apply lxor_inr; [lia|exact IA|exact IB].
Qed.
Lemma L_bit : forall op F f n w, bit_op op = Some F -> ve f n (TInt w) -> Goal (LiftSseBinOp c cfg kc i op false f) (F a b).
Proof.
  intros op F f n w O V. unfold LiftSseBinOp. vopen V T EN.
  destruct (negb false && _ && _ && _ && _) eqn:X.
  - destruct op; try discriminate X. injection O as <-. clear LD IB. destruct (i_op1 i) as [|w1 n1|w1 n1|w1 m1|w1 z1] eqn:I1; try (cbn in X; discriminate X).
    + cbn [q_ri] in X. assert (n1 = d) by (cbn in X; lia). subst n1. cbn [s_val]. rewrite Z.lxor_nilpotent.
      rewrite <- (app_nil_r (qstore _ _ _ _)).
      eapply Zt_put; [exact HA|exact N| |split; [|left; split; [cbn [tsize]; lia|reflexivity]]|eapply Zt_nil; exact C].
      * pose proof (pv_const c vs (TVec n (TInt w)) 0) as P. unfold trunc in P. rewrite Z.mod_0_l in P by (apply Z.pow_nonzero; cbn [tsize]; lia). exact P.
      * unfold inr. pose proof (pow2_pos (tsize (TVec n (TInt w))) ltac:(cbn [tsize]; lia)). lia.
    + contradiction NG.
  - eapply p2; [exact V|apply (f_bit c op F n w a b O); lia|sd|sd|sd|].
    cbn [tsize]. apply vec_whole; try lia. exact (bit_inr op F O).
Qed.
Lemma L_andn : forall f n w, ve f n (TInt w) -> Goal (LiftSseAndn c cfg kc i f) (Z.land (ones 128 - a) b).
Proof.
  intros f n w V. unfold LiftSseAndn. vopen V T EN.
  pose proof (f_andn c n w a b ltac:(lia) ltac:(lia) NW) as P. rewrite (Z.mod_small a) in P by exact IA.
  eapply p2; [exact V|exact P|sd|sd|sd|]. cbn [tsize]. apply vec_whole; try lia. rewrite Z.land_comm. apply land_inr_l; [lia|exact IB].
Qed.
Lemma L_horz : forall op F f n w, arith_op op = Some F -> ve f n (TInt w) -> Goal (LiftSseBinOp c cfg kc i op true f) (hpair w F a b).
Proof.
  intros op F f n w O V. unfold LiftSseBinOp. vopen V T EN. cbn [negb andb].
  pose proof (f_horz c op F n w a b O ltac:(lia) ltac:(lia) MOD2) as P. rewrite HALF in P.
  eapply p2; [exact V|exact P|sd|sd|sd|]. rewrite EN. reflexivity.
Qed.
Lemma L_sat : forall op F sign f n w, addsub_op op = Some F -> w = 8 \/ w = 16 -> facet_Resolve f 128 = f -> ve f n (TInt w) ->
  Goal (LiftSsePaddsubSaturate c cfg kc i op sign false f)
    (if sign : bool then lanes2 w (fun x y => ssat w (F (S_ w x) (S_ w y))) a b else lanes2 w (fun x y => usat w (F x y)) a b).
Proof.
  intros op F sign f n w O W RS V. unfold LiftSsePaddsubSaturate. rewrite <- RS. vopen V T EN. rewrite RS.
  eapply p2; [exact V|apply (f_addsat c op F sign n w a b O W); lia|sd|sd|sd|].
  assert (X : forall q, inr w q -> U w q = q) by (intros q Q; apply trunc_small; exact Q).
  destruct sign; unfold lanes2, v128; rewrite EN; apply vec_ext; intros k K; apply X.
  - unfold ssat. apply trunc_inr. lia.
  - unfold usat, clamp, inr. pose proof (pow2_pos w ltac:(lia)). lia.
Qed.
Lemma L_hsat : forall op F f n w, addsub_op op = Some F -> w = 8 \/ w = 16 -> facet_Resolve f 128 = f -> ve f n (TInt w) ->
  Goal (LiftSsePaddsubSaturate c cfg kc i op true true f) (hpair w (fun x y => ssat w (F (S_ w x) (S_ w y))) a b).
Proof.
  intros op F f n w O W RS V. unfold LiftSsePaddsubSaturate. rewrite <- RS. vopen V T EN. rewrite RS.
  pose proof (f_hsat c op F n w a b O W ltac:(lia) MOD2) as P. rewrite HALF in P.
  eapply p2; [exact V|exact P|sd|sd|sd|].
  assert (X : forall q, inr w q -> U w q = q) by (intros q Q; apply trunc_small; exact Q).
  unfold hpair, v128; rewrite EN; apply vec_ext; intros k K; apply X. unfold ssat. apply trunc_inr. lia.
Qed.
Lemma L_pack : forall sign f n w, w = 16 \/ w = 32 -> ve f n (TInt w) ->
  Goal (LiftSsePack c cfg kc i f sign) (packv w (if sign : bool then ssat (w / 2) else usat (w / 2)) a b).
Proof.
  intros sign f n w W V. unfold LiftSsePack. vopen V T EN.
  eapply p2; [exact V|apply (f_pack c n w sign a b W); lia|sd|sd|sd|].
  unfold packv, v128. cbn [tsize]. replace (128 / (w / 2)) with (2 * n) by (destruct W as [-> | ->]; subst n; reflexivity).
  rewrite <- EN. reflexivity.
Qed.
Lemma L_avg : forall f n w, ve f n (TInt w) -> Goal (LiftSsePavg c cfg kc i f) (lanes2 w (fun x y => (x + y + 1) / 2) a b).
Proof.
  intros f n w V. unfold LiftSsePavg. vopen V T EN.
  eapply p2; [exact V|apply (f_avg c n w a b); lia|sd|sd|sd|]. rewrite EN. reflexivity.
Qed.
Lemma ve_16 : ve VI16 8 (TInt 16). Proof. repeat split. Qed.
Lemma ve_32 : ve VI32 4 (TInt 32). Proof. repeat split. Qed.
Lemma ve_8 : ve VI8 16 (TInt 8). Proof. repeat split. Qed.
Lemma L_mulh : forall sign : bool, Goal (LiftSsePmulhw c cfg kc i (if sign then CSExt else CZExt))
  (lanes2 16 (fun x y => (if sign then S_ 16 x * S_ 16 y else x * y) / 2 ^ 16) a b).
Proof.
  intros sign. unfold LiftSsePmulhw. fx. eapply p2; [exact ve_16|apply (f_mulh c sign a b)|sd|sd|sd|reflexivity].
Qed.
Lemma L_muldq : forall sign : bool, Goal (LiftSsePmuldq c cfg kc i (if sign then CSExt else CZExt))
  (v128 64 (fun k => if sign then U 64 (S_ 32 (Ln 32 a (2 * k)) * S_ 32 (Ln 32 b (2 * k))) else Ln 32 a (2 * k) * Ln 32 b (2 * k))).
Proof.
  intros sign. unfold LiftSsePmuldq. fx. eapply p2; [exact ve_32|apply (f_muldq c sign a b)|sd|sd|sd|reflexivity].
Qed.
Lemma L_maddwd : Goal (LiftSsePmaddwd c cfg kc i)
  (v128 32 (fun k => U 32 (S_ 16 (Ln 16 a (2 * k)) * S_ 16 (Ln 16 b (2 * k)) + S_ 16 (Ln 16 a (2 * k + 1)) * S_ 16 (Ln 16 b (2 * k + 1))))).
Proof. unfold LiftSsePmaddwd. fx. eapply p2; [exact ve_16|apply (f_maddwd c a b)|sd|sd|sd|reflexivity]. Qed.
Lemma L_maddubsw : Goal (LiftSsePmaddubsw c cfg kc i)
  (v128 16 (fun k => ssat 16 (Ln 8 a (2 * k) * S_ 8 (Ln 8 b (2 * k)) + Ln 8 a (2 * k + 1) * S_ 8 (Ln 8 b (2 * k + 1))))).
Proof. unfold LiftSsePmaddubsw. fx. eapply p2s; [exact ve_8|apply (f_maddubsw c a b)|sd|sd|sd|reflexivity]. Qed.
Lemma L_sad : Goal (LiftSsePsadbw c cfg kc i) (sad8 a b 0 + sad8 a b 8 * 2 ^ 64).
Proof. unfold LiftSsePsadbw. fx. eapply p2; [exact ve_8|apply (f_sad c a b)|sd|sd|sd|]. symmetry. apply f_sad_vec. Qed.
Lemma L_pcmp_eq : forall f n w, ve f n (TInt w) -> Goal (LiftSsePcmp c cfg kc i EQ f) (lanes2 w (fun x y => mask_if w (x =? y)) a b).
Proof.
  intros f n w V. unfold LiftSsePcmp. vopen V T EN. eapply p2; [exact V|apply (f_cmp c EQ n w a b); lia|sd|sd|sd|].
  unfold lanes2, v128. rewrite EN. apply vec_ext. intros k K. cbn [icmp_sem]. apply trunc_small. apply mask_if_inr. lia.
Qed.
Lemma L_pcmp_gt : forall f n w, ve f n (TInt w) -> Goal (LiftSsePcmp c cfg kc i SGT f) (slanes w (fun x y => mask_if w (y <? x)) a b).
Proof.
  intros f n w V. unfold LiftSsePcmp. vopen V T EN. eapply p2; [exact V|apply (f_cmp c SGT n w a b); lia|sd|sd|sd|].
  unfold slanes, lanes2, v128. rewrite EN. apply vec_ext. intros k K. cbn [icmp_sem]. rewrite !S_small by (apply Ln_inr; lia).
  apply trunc_small. apply mask_if_inr. lia.
Qed.
Lemma L_mm_u : forall p F f n w, (p = ULT /\ F = Z.min) \/ (p = UGT /\ F = Z.max) -> ve f n (TInt w) ->
  Goal (LiftSsePminmax c cfg kc i p f) (lanes2 w F a b).
Proof.
  intros p F f n w P V. unfold LiftSsePminmax. vopen V T EN. eapply p2; [exact V|apply (f_minmax c p n w a b); lia|sd|sd|sd|].
  unfold lanes2, v128. rewrite EN. apply vec_ext. intros k K.
  pose proof (Ln_inr w a k ltac:(lia)) as JA. pose proof (Ln_inr w b k ltac:(lia)) as JB. unfold inr in *. change U with trunc.
  destruct P as [[-> ->]|[-> ->]]; cbn [icmp_sem]; rewrite trunc_id by lia.
  - destruct (Z.ltb_spec (Ln w a k) (Ln w b k)); lia.
  - destruct (Z.ltb_spec (Ln w b k) (Ln w a k)); lia.
Qed.
Lemma L_mm_s : forall p F f n w, (p = SLT /\ F = Z.min) \/ (p = SGT /\ F = Z.max) -> ve f n (TInt w) ->
  Goal (LiftSsePminmax c cfg kc i p f) (slanes w F a b).
Proof.
  intros p F f n w P V. unfold LiftSsePminmax. vopen V T EN. eapply p2; [exact V|apply (f_minmax c p n w a b); lia|sd|sd|sd|].
  unfold slanes, lanes2, v128. rewrite EN. apply vec_ext. intros k K.
  pose proof (Ln_inr w a k ltac:(lia)) as JA. pose proof (Ln_inr w b k ltac:(lia)) as JB. change U with trunc. rewrite !S_small by assumption.
  destruct P as [[-> ->]|[-> ->]]; cbn [icmp_sem].
  - destruct (Z.ltb_spec (sgn w (Ln w a k)) (sgn w (Ln w b k))); [rewrite Z.min_l by lia|rewrite Z.min_r by lia]; apply trunc_sgn; (lia || assumption).
  - destruct (Z.ltb_spec (sgn w (Ln w b k)) (sgn w (Ln w a k))); [rewrite Z.max_l by lia|rewrite Z.max_r by lia]; apply trunc_sgn; (lia || assumption).
Qed.
Lemma L_abs : forall f n w, ve f n (TInt w) -> Goal (LiftSsePabs c cfg kc i f) (v128 w (fun k => Z.abs (S_ w (Ln w b k)))).
Proof.
  intros f n w V. unfold LiftSsePabs. vopen V T EN. eapply p1; [exact V|apply (f_abs c n w b); lia|sd|sd|sd|]. rewrite EN. reflexivity.
Qed.
Lemma L_sign : forall f n w, ve f n (TInt w) -> Goal (LiftSsePsign c cfg kc i f) (slanes w (fun x y => x * Z.sgn y) a b).
Proof.
  intros f n w V. unfold LiftSsePsign. vopen V T EN. eapply p2; [exact V|apply (f_sign c n w a b); lia|sd|sd|sd|]. rewrite EN. reflexivity.
Qed.
(** Shuffles. *)
Lemma L_unpck : forall f n s h, ve f n s -> facet_type f = TVec n s -> h = 0 \/ h = 1 ->
  unpck_mask (i_mn i) = map (fun k => (if Z.even k then 0 else n) + h * (n / 2) + k / 2) (zseq n) ->
  Goal (LiftSseUnpck c cfg kc i f) (unpack (tsize s) h a b).
Proof.
  intros f n s h V FT Hh M. unfold LiftSseUnpck. rewrite FT, M. vopen V T EN. destruct (ve_n _ _ _ V) as (NW' & PN' & PW' & _ & HALF').
  eapply p2; [exact V|apply (f_shuf2 c n _ n s a b); try lia|lia|lia|lia|].
  - intros k K. destruct (Z.even k), Hh as [-> | ->]; lia.
  - unfold unpack, v128. rewrite <- EN, <- HALF. apply vec_ext. intros k K. cbn beta.
    destruct (Z.even k).
    + replace (0 + h * (n / 2) + k / 2 <? n) with true by (destruct Hh as [-> | ->]; lia). reflexivity.
    + replace (n + h * (n / 2) + k / 2 <? n) with false by (destruct Hh as [-> | ->]; lia). f_equal. lia.
Qed.
Lemma L_shufpd : Goal (LiftSseShufpd c cfg kc i) (v128 64 (fun k => Ln 64 (if k =? 0 then a else b) ((U 8 (q_imm (i_op2 i)) / 2 ^ k) mod 2))).
Proof.
  unfold LiftSseShufpd. fx. set (imm := q_imm (i_op2 i)).
  pose (m := fun k => (if k =? 0 then 0 else 2) + Z.land (Z.shiftr imm k) (2 ^ 1 - 1)).
  replace [_; _] with (map m (zseq 2)).
  2: { change (map m (zseq 2)) with [m 0; m 1]. unfold m. rewrite !land_mod by lia. rewrite Z.shiftr_0_r. change (2 ^ 1) with 2.
       cbn [Z.eqb]. rewrite !Zmod_odd. destruct (Z.odd imm), (Z.odd (Z.shiftr imm 1)); reflexivity. }
  assert (B : forall k, 0 <= k < 2 -> Z.land (Z.shiftr imm k) (2 ^ 1 - 1) = (U 8 imm / 2 ^ k) mod 2) by (intros k K; apply (field_spec imm k 1); lia).
  assert (R : forall k, 0 <= (U 8 imm / 2 ^ k) mod 2 < 2) by (intros; apply Z.mod_pos_bound; lia).
  eapply p2; [repeat split|apply (f_shuf2 c 2 m 2 TF64 a b); sd|sd|sd|sd|].
  - intros k K. unfold m. rewrite B by lia. specialize (R k). destruct (k =? 0); lia.
  - unfold v128. cbn [tsize]. apply (vec_ext 64 _ _ (Z.to_nat 2)). intros k K. unfold m. rewrite B by lia. specialize (R k).
    destruct (Z.eqb_spec k 0).
    + replace (_ <? 2) with true by lia. f_equal.
    + replace (_ <? 2) with false by lia. f_equal. lia.
Qed.
Lemma L_shufps : Goal (LiftSseShufps c cfg kc i) (v128 32 (fun k => Ln 32 (if k <? 2 then a else b) ((U 8 (q_imm (i_op2 i)) / 4 ^ k) mod 4))).
Proof.
  unfold LiftSseShufps. fx. set (imm := q_imm (i_op2 i)).
  assert (R : forall k, 0 <= (U 8 imm / 4 ^ k) mod 4 < 4) by (intros; apply Z.mod_pos_bound; lia).
  eapply p2; [repeat split|apply (f_shuf2 c 4 _ 4 TF32 a b); sd|sd|sd|sd|].
  - intros k K. rewrite sel2_spec by lia. specialize (R k). destruct (k <? 2); lia.
  - unfold v128. cbn [tsize]. apply (vec_ext 32 _ _ (Z.to_nat 4)). intros k K. cbn beta. rewrite sel2_spec by lia. specialize (R k).
    destruct (Z.ltb_spec k 2).
    + replace (_ <? 4) with true by lia. f_equal.
    + replace (_ <? 4) with false by lia. f_equal. lia.
Qed.
Lemma L_pshufd : Goal (LiftSsePshufd c cfg kc i) (v128 32 (fun k => Ln 32 b ((U 8 (q_imm (i_op2 i)) / 4 ^ k) mod 4))).
Proof.
  unfold LiftSsePshufd. fx. set (imm := q_imm (i_op2 i)).
  assert (R : forall k, 0 <= (U 8 imm / 4 ^ k) mod 4 < 4) by (intros; apply Z.mod_pos_bound; lia).
  eapply p1; [exact ve_32|apply (f_shuf1 c 4 _ 4 (TInt 32) b); sd|sd|sd|sd|].
  - intros k K. rewrite sel2_spec by lia. apply R.
  - unfold v128. cbn [tsize]. apply (vec_ext 32 _ _ (Z.to_nat 4)). intros k K. rewrite sel2_spec by lia. reflexivity.
Qed.
Lemma L_pshuflw : Goal (LiftSsePshufw c cfg kc i 0) (v128 16 (fun k => if k <? 4 then Ln 16 b ((U 8 (q_imm (i_op2 i)) / 4 ^ k) mod 4) else Ln 16 b k)).
Proof.
  unfold LiftSsePshufw. fx. set (imm := q_imm (i_op2 i)).
  assert (R : forall k, 0 <= (U 8 imm / 4 ^ k) mod 4 < 4) by (intros; apply Z.mod_pos_bound; lia).
  eapply p1; [exact ve_16|apply (f_shuf1 c 8 _ 8 (TInt 16) b); sd|sd|sd|sd|].
  - intros k K. destruct (Z.leb_spec 0 k), (Z.ltb_spec k (0 + 4)); cbn [andb]; try lia. rewrite sel2_spec by lia. specialize (R k). lia.
  - unfold v128. cbn [tsize]. apply (vec_ext 16 _ _ (Z.to_nat 8)). intros k K. cbn beta. replace (0 <=? k) with true by lia. cbn [andb Z.add].
    destruct (Z.ltb_spec k 4); [rewrite sel2_spec by lia|]; reflexivity.
Qed.
(** PSHUFHW: the loop variable of LiftSsePshufw is also the shift count. *)
Lemma L_pshufhw : -128 <= q_imm (i_op2 i) < 256 ->
  Goal (LiftSsePshufw c cfg kc i 4) (v128 16 (fun k => if k <? 4 then Ln 16 b k else Ln 16 b (if q_imm (i_op2 i) <? 0 then 7 else 4))).
Proof.
  intros R. unfold LiftSsePshufw. fx. set (imm := q_imm (i_op2 i)) in *.
  assert (S : forall k, 4 <= k < 8 -> sel2 imm k = if imm <? 0 then 3 else 0).
  { intros k K. unfold sel2. change 3 with (Z.ones 2) at 1. rewrite Z.land_ones, Z.shiftr_div_pow2 by lia.
    destruct (Z.ltb_spec imm 0).
    - replace (imm / 2 ^ (2 * k)) with (-1); [reflexivity|]. apply (Z.div_unique _ _ _ (imm + 2 ^ (2 * k))); [|lia].
      left. assert (2 ^ 8 <= 2 ^ (2 * k)) by (apply Z.pow_le_mono_r; lia). lia.
    - rewrite Z.div_small; [reflexivity|]. assert (2 ^ 8 <= 2 ^ (2 * k)) by (apply Z.pow_le_mono_r; lia). lia. }
  eapply p1; [exact ve_16|apply (f_shuf1 c 8 _ 8 (TInt 16) b); sd|sd|sd|sd|].
  - intros k K. destruct (Z.leb_spec 4 k), (Z.ltb_spec k (4 + 4)); cbn [andb]; try lia. rewrite S by lia. destruct (imm <? 0); lia.
  - unfold v128. cbn [tsize]. apply (vec_ext 16 _ _ (Z.to_nat 8)). intros k K. cbn beta. replace (k <? 4 + 4) with true by lia. rewrite andb_true_r.
    destruct (Z.ltb_spec k 4), (Z.leb_spec 4 k); try (exfalso; lia); try reflexivity. rewrite S by lia. destruct (imm <? 0); reflexivity.
Qed.
Lemma L_movdup : forall off, off = 0 \/ off = 1 -> Goal (LiftSseMovdup c cfg kc i VF32 off) (v128 32 (fun k => Ln 32 b (k - k mod 2 + off))).
Proof.
  intros off OF. unfold LiftSseMovdup. fx. change (128 / fw (facet_Resolve VF32 128)) with 4. change (felt (facet_Resolve VF32 128)) with TF32.
  assert (X : forall k, 0 <= k < 4 -> Z.land k 254 = k - k mod 2) by (intros k K; kcase k K 4; reflexivity).
  eapply p1; [repeat split|apply (f_shuf1 c 4 _ 4 TF32 b); sd|sd|sd|sd|].
  - intros k K. rewrite X by lia. lia.
  - unfold v128. cbn [tsize]. apply (vec_ext 32 _ _ (Z.to_nat 4)). intros k K. rewrite X by lia. reflexivity.
Qed.
Lemma L_palignr : forall imm, q_imm (i_op2 i) = imm -> -128 <= imm < 256 -> Goal (LiftSsePalignr c cfg kc i) (U 128 ((a * 2 ^ 128 + b) / 2 ^ (8 * U 8 imm))).
Proof.
  intros imm EI RI. unfold LiftSsePalignr. fx. rewrite EI.
  assert (TI : 0 <= imm /\ trunc 32 imm = imm /\ U 8 imm = imm \/ imm < 0 /\ trunc 32 imm >= 2 ^ 31 /\ U 8 imm = imm + 256).
  { unfold trunc, U. change (2 ^ 32) with 4294967296. change (2 ^ 8) with 256. change (2 ^ 31) with 2147483648. lia. }
  assert (SP : forall s, 0 <= s -> U 128 ((a * 2 ^ 128 + b) / 2 ^ (8 * s)) =
      vec 8 (fun k => if k + s <? 16 then Ln 8 b (k + s) else Ln 8 a (k + s - 16)) (Z.to_nat 16)).
  { intros s P. symmetry. apply vec_is; [lia| |apply trunc_inr; lia]. intros k K. unfold U. rewrite Ln_trunc by lia. rewrite Ln_shr by lia.
    change (2 ^ 128) with (2 ^ (8 * 16)). rewrite (Ln_add 8 16) by (try exact IB; lia). reflexivity. }
  assert (HI : forall k, 16 <= k -> Ln 8 a k = 0). { intros k K. apply (Ln_high 8 16); [lia|lia|exact IA]. }
  rewrite SP by lia. set (tr := trunc 32 imm) in *. change (2 ^ 31) with 2147483648 in TI.
  destruct (Z.eqb_spec tr 0); [|destruct (Z.eqb_spec tr 16); [|destruct (Z.leb_spec 32 tr); [|destruct (Z.ltb_spec 16 tr)]]].
  - eapply p2; [repeat split|intros vs' V1 V2; eapply pvec_v; [exact V2|sd|sd]|sd|sd|sd|].
    cbn [tsize]. apply vec_ext. intros k K. replace (U 8 imm) with 0 by lia. replace (k + 0 <? 16) with true by lia. f_equal. lia.
  - eapply p2; [repeat split|intros vs' V1 V2; eapply pvec_v; [exact V1|sd|sd]|sd|sd|sd|].
    cbn [tsize]. apply vec_ext. intros k K. replace (U 8 imm) with 16 by lia. replace (k + 16 <? 16) with false by lia. f_equal. lia.
  - eapply p2; [repeat split|intros vs' V1 V2; eapply pvec_null; sd|sd|sd|sd|].
    cbn [tsize]. apply vec_ext. intros k K. replace (_ <? 16) with false by lia. apply HI. lia.
  - eapply p2; [repeat split|apply vres_1; apply (f_shufz c 16 _ 16 (TInt 8) a); sd|sd|sd|sd|].
    + intros k K. pose proof (land_mod tr 4 ltac:(lia)) as M. change (2 ^ 4 - 1) with 15 in M. rewrite M. change (2 ^ 4) with 16. lia.
    + cbn [tsize]. apply vec_ext. intros k K. pose proof (land_mod tr 4 ltac:(lia)) as M. change (2 ^ 4 - 1) with 15 in M. rewrite M. change (2 ^ 4) with 16.
      replace (tr mod 16) with (tr - 16) by lia. replace (U 8 imm) with tr by lia. replace (k + tr <? 16) with false by lia.
      replace (k + tr - 16) with (k + (tr - 16)) by lia. destruct (Z.ltb_spec (k + (tr - 16)) 16); [reflexivity|apply HI; lia].
  - eapply p2; [repeat split|intros vs' V1 V2; apply (pvec_shufm c vs' 16 (fun k => k + Z.land tr 15) v2 v1 16 (TInt 8) (Ln 8 b) (Ln 8 a)); [pv1|pv1|sd|sd|]|sd|sd|sd|].
    + intros k K. pose proof (land_mod tr 4 ltac:(lia)) as M. change (2 ^ 4 - 1) with 15 in M. rewrite M. change (2 ^ 4) with 16. lia.
    + cbn [tsize]. apply vec_ext. intros k K. pose proof (land_mod tr 4 ltac:(lia)) as M. change (2 ^ 4 - 1) with 15 in M. rewrite M. change (2 ^ 4) with 16.
      assert (0 <= tr) by (apply Z.mod_pos_bound; reflexivity). replace (tr mod 16) with tr by lia. replace (U 8 imm) with tr by lia. reflexivity.
Qed.

(** Floating point. *)
Lemma L_fpk : forall op f n t r, ve f n t -> ftype t = true -> fpk op t a b = Some r -> Goal (LiftSseFBinOp c cfg kc i op false f) r.
Proof.
  intros op f n t r V FT E. unfold LiftSseFBinOp. vopen V T EN. unfold fpk in E. rewrite (fw_tsize t (ftype_stype t FT)) in E.
  apply ovec_some in E. destruct E as [D ->]. rewrite <- EN in *.
  eapply p2; [exact V|apply (f_fop2 c op n t a b); [exact FT|lia|intros k K; apply D; lia]|lia|lia|lia|reflexivity].
Qed.
Lemma L_fhz : forall op f n t r, ve f n t -> ftype t = true -> fhz op t a b = Some r -> Goal (LiftSseFBinOp c cfg kc i op true f) r.
Proof.
  intros op f n t r V FT E. unfold LiftSseFBinOp. vopen V T EN. unfold fhz in E. rewrite (fw_tsize t (ftype_stype t FT)) in E.
  apply ovec_some in E. destruct E as [D ->]. rewrite <- EN in *. rewrite <- HALF in *.
  eapply p2; [exact V|apply (f_fhz c op n t a b); [exact FT|lia|exact MOD2|intros k K; apply D; lia]|lia|lia|lia|reflexivity].
Qed.
Lemma L_addsub : forall rel f n t r, fpu_std rel -> ve f n t -> ftype t = true -> addsub t a b = Some r -> Goal (LiftSseAddSub c cfg kc i f) r.
Proof.
  intros rel f n t r [_ TOT] V FT E. unfold LiftSseAddSub. vopen V T EN. unfold addsub in E. rewrite (fw_tsize t (ftype_stype t FT)) in E.
  apply ovec_some in E. destruct E as [D ->]. rewrite <- EN in *.
  assert (X : forall op, op = FAdd \/ op = FSub -> forall k, 0 <= k < n ->
     fop op t t [Ln (tsize t) a k; Ln (tsize t) b k] = Some (match fop op t t [Ln (tsize t) a k; Ln (tsize t) b k] with Some x => x | None => 0 end)).
  { intros op OP k K. unfold fop. specialize (TOT op t (Ln (tsize t) a k) (Ln (tsize t) b k) OP FT).
    destruct (fpu_op op t t _); [reflexivity|congruence]. }
  eapply p2; [exact V|eapply (f_addsub c n t a b _ _ FT); [lia|apply X; auto|apply X; auto]|lia|lia|lia|].
  apply vec_ext. intros k K. destruct (Z.even k); reflexivity.
Qed.
Lemma L_sqrt : forall f n t r, ve f n t -> ftype t = true -> ovec (tsize t) (fun k => fop FSqrt t t [Ln (tsize t) b k]) (Z.to_nat n) = Some r ->
  Goal (LiftSseSqrt c cfg kc i f) r.
Proof.
  intros f n t r V FT E. unfold LiftSseSqrt. vopen V T EN.
  apply ovec_some in E. destruct E as [D ->].
  eapply p1; [exact V|apply (f_fop1 c FSqrt n t t b); [apply ftype_stype, FT|apply ftype_stype, FT|lia|intros k K; apply D; lia]|lia|lia|lia|reflexivity].
Qed.
Lemma L_minmax : forall rel w f n t, fpu_std rel -> w <> Eq -> ve f n t -> ftype t = true ->
  Goal (LiftSseMinmax c cfg kc i (mm_pred w) f) (lanes2 (tsize t) (fminmax rel w t) a b).
Proof.
  intros rel w f n t [FC _] NW' V FT. unfold LiftSseMinmax. vopen V T EN.
  eapply p2; [exact V|apply (p_minmax c rel FC w n t a b NW' FT); lia|lia|lia|lia|].
  unfold lanes2, v128. rewrite <- EN. apply vec_ext. intros k K. apply trunc_small. apply fminmax_inr; apply Ln_inr; lia.
Qed.
Lemma L_cmp : forall rel f n t imm r, fpu_std rel -> ve f n t -> ftype t = true -> q_imm (i_op2 i) = imm -> -128 <= imm < 256 ->
  fcmpk rel t (U 8 imm) a b = Some r -> Goal (LiftSseCmp c cfg kc i f) r.
Proof.
  intros rel f n t imm r [FC _] V FT EI RI E. unfold fcmpk in E. destruct (Z.ltb_spec (U 8 imm) 8) as [L8|]; [|discriminate]. injection E as <-.
  assert (B : U 8 imm = imm /\ 0 <= imm < 8). { unfold U in *. change (2 ^ 8) with 256 in *. lia. } destruct B as [-> B].
  unfold LiftSseCmp. rewrite EI.
  pose proof (cmp_pred_some imm B) as P.
  destruct P as [p P]. rewrite P. vopen V T EN.
  rewrite (fw_tsize t (ftype_stype t FT)). unfold v128. rewrite <- EN.
  eapply p2; [exact V|apply (p_cmp c rel FC imm p n t a b P B FT); lia|sd|sd|sd|]. reflexivity.
Qed.
End Packed.
End Step.
