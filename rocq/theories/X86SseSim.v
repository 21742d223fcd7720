(** Proof infrastructure for the SSE lifter: relation to the guest state with XMM
    registers, and triples over [arun]. *)

From Coq Require Import ZArith Lia ZifyBool List Bool.
From Verif Require Import Bits IR Facet Dsl Rv64 Rv64Spec Rv64Sim Rv64Arith X86 X86Spec X86Arith X86Sim X86Ops X86Sse X86SseSpec X86SseVec.
Import ListNotations.
Open Scope Z_scope.
Ltac Zify.zify_post_hook ::= Z.div_mod_to_equations.

Definition zrel (s : st) (g : zst) : Prop :=
  xrel s (z_x g) /\ forall n, 0 <= n < 16 -> s_reg s (VEC n) = Some (z_q g n) /\ inr 128 (z_q g n).
Definition good_q (cfg : xcfg) (o : sop) : bool := match o with QM _ m => good_mem cfg (m_seg m) m | _ => true end.

(** Reading fewer bytes. *)
Lemma rd_mem_low : forall m a k n, (k <= n)%nat -> rd_mem m a k = trunc (8 * Z.of_nat k) (rd_mem m a n).
Proof.
  intros m a k n L. induction L as [|n L IH].
  - symmetry. apply trunc_small. apply rd_mem_inr.
  - rewrite IH. cbn [rd_mem]. unfold trunc. change 256 with (2 ^ 8) at 2. rewrite <- Z.pow_mul_r by lia.
    replace (8 * Z.of_nat n) with (8 * Z.of_nat (n - k) + 8 * Z.of_nat k) by lia. rewrite Z.pow_add_r by lia.
    rewrite Z.mul_assoc, Z_mod_plus_full. reflexivity.
Qed.
Lemma merge_low : forall w o z, 0 <= w <= 128 -> inr 128 o -> inr w z ->
  Z.lor (Z.land o (Z.lxor (Z.ones 128) (Z.ones w))) z = low w o z.
Proof.
  intros w o z W O Zr. unfold low. rewrite (Z.mod_small z) by exact Zr. replace (o - o mod 2^w) with ((o / 2^w) * 2^w).
  2: { pose proof (pow2_pos w ltac:(lia)). pose proof (Z.div_mod o (2^w) ltac:(lia)). lia. }
  rewrite <- shl_lor by (assumption || lia). f_equal. rewrite <- Z.shiftr_div_pow2 by lia.
  apply Z.bits_inj'. intros i I. rewrite Z.land_spec, Z.lxor_spec, !testbit_ones by lia.
  destruct (Z.ltb_spec i w).
  - replace (i <? 128) with true by lia. cbn [xorb]. rewrite andb_false_r.
    rewrite Z.shiftl_spec, Z.testbit_neg_r by lia. reflexivity.
  - rewrite Z.shiftl_spec, Z.shiftr_spec by lia. replace (i - w + w) with i by lia.
    destruct (Z.ltb_spec i 128); cbn [xorb]; [rewrite andb_true_r; reflexivity|].
    rewrite andb_false_r. symmetry. apply (testbit_inr_high 128); [lia|exact O|lia].
Qed.
Lemma low_inr : forall w o z, 0 <= w <= 128 -> inr 128 o -> inr 128 (low w o z).
Proof.
  intros w o z W O. unfold low. pose proof (Z.mod_pos_bound z (2 ^ w) ltac:(apply Z.pow_pos_nonneg; lia)).
  replace (o - o mod 2^w) with (2^w * (o / 2^w)) by (pose proof (Z.div_mod o (2^w) ltac:(apply Z.pow_nonzero; lia)); lia).
  unfold inr in *. assert (E : 2 ^ 128 = 2 ^ w * 2 ^ (128 - w)) by (rewrite <- Z.pow_add_r by lia; f_equal; lia).
  assert (0 < 2 ^ w) by (apply Z.pow_pos_nonneg; lia).
  assert (o / 2 ^ w < 2 ^ (128 - w)) by (apply Z.div_lt_upper_bound; lia).
  assert (0 <= o / 2 ^ w) by (apply Z.div_pos; lia). nia.
Qed.

Section Sim.
Context `{FpuOps}.
Variable c : cenv.
Variable cfg : xcfg.
Hypothesis HA : c_arch c = X86_64.
Hypothesis GB : gbase_ok c.
Variable kc : areg -> konst.
(** Address of the following instruction. *)
Variable pc : Z.

Definition zctx (g : zst) : Prop := y_ip (z_x g) = addr_pc_base c pc /\ xkc_sound kc (z_x g).
Definition ZAt (g : zst) (vs : nat -> option rv) (rt : bool) (s : st) : Prop :=
  zrel s g /\ s_pc s = PcConst pc /\ s_var s = vs /\ s_ret s = rt.
Definition Zt (g : zst) (vs : nat -> option rv) (rt : bool) (l : list astm) (Q : st -> Prop) : Prop :=
  forall s, ZAt g vs rt s -> exists s', arun c s l = Ok s' /\ Q s'.
Definition zdone (g : zst) (rt : bool) (s : st) : Prop :=
  zrel s g /\ pc_value c (s_pc s) 0 = Ok (V (TInt 64) (y_ip (z_x g))) /\ s_ret s = rt.

Lemma ev_sAddr : forall s g m vs rt, ZAt g vs rt s -> zctx g -> wf_mem m = true -> good_mem cfg (m_seg m) m = true ->
  ev c s (sAddr c cfg kc m) = Ok (V TPtr (ea (z_x g) m)).
Proof.
  intros s g m vs rt ([R _] & P & _) [IP K] W GM. unfold sAddr.
  apply (ev_OpAddr c cfg kc s (z_x g) pc 7 m R P IP W K GB). exact GM.
Qed.
Lemma zrel_var : forall s g v, zrel s g -> zrel (with_var s v) g.
Proof. intros s g v [R Q]. split; [apply xrel_var; exact R|exact Q]. Qed.
Lemma zrel_mem : forall s g m m', zrel s g -> (forall x, m x = m' x) -> zrel (with_mem s m) (set_x g (set_m (z_x g) m')).
Proof. intros s g m m' [R Q] E. split; [apply xrel_mem; assumption|exact Q]. Qed.
Lemma zrel_q : forall s g d z, zrel s g -> inr 128 z -> zrel (with_reg s (upd_reg (s_reg s) (VEC d) (Some z))) (set_q g d z).
Proof.
  intros s g d z [R Q] I. split.
  - destruct R as [A B C D E F J M]. split; try assumption. intros f b Hf. specialize (J f b Hf). destruct f; exact J.
  - intros n N. cbn [set_q z_q with_reg s_reg]. unfold upd_reg. cbn [areg_eqb]. rewrite (Z.eqb_sym n d). destruct (d =? n); auto.
Qed.
Lemma zrel_gp : forall s g r z, zrel s g -> 0 <= r < 16 -> inr 64 z ->
  zrel (with_reg s (upd_reg (s_reg s) (GP r) (Some z))) (set_x g (wr_reg (z_x g) 64 r z)).
Proof.
  intros s g r z [R Q] N I. split.
  - unfold wr_reg, reg_merge. cbn [Z.eqb Pos.eqb]. change U with trunc. rewrite trunc_small by exact I. apply xrel_reg; assumption.
  - exact Q.
Qed.

(** *** Loads *)
(** Facets with a type whose size is a whole number of bytes. *)
Definition okf (f : facet) : bool :=
  facet_real f && negb (facet_eqb f I8H) && (0 <? tsize (facet_type f)) && (tsize (facet_type f) mod 8 =? 0) &&
  (tsize (facet_type f) =? facet_size f).
Lemma get_okf : forall f z, okf f = true -> get_facet (Some z) f = V (facet_type f) (trunc (tsize (facet_type f)) z).
Proof.
  intros f z O. unfold okf in O. assert (tsize (facet_type f) = facet_size f) by lia.
  unfold get_facet. destruct f; try (rewrite H0; reflexivity). discriminate O.
Qed.
(** Operand [o] can be read as type [t] with alignment [a]. *)
Definition ldok (g : zst) (o : sop) (t : ty) (a : align) : Prop :=
  match o with
  | QX _ n => okr n = true
  | QG _ r => okr r = true
  | QM w m => wf_mem m = true /\ good_mem cfg (m_seg m) m = true /\ tsize t <= w /\ ea (z_x g) m mod aset t a false = 0
  | _ => False
  end.
Lemma Zt_let : forall g vs rt x e v l Q, (forall s, ZAt g vs rt s -> ev c s e = Ok v) -> Zt g (upd_var vs x v) rt l Q ->
  Zt g vs rt ((1, SLet x e) :: l) Q.
Proof.
  intros g vs rt x e v l Q E K s A. cbn [arun aok bind run1]. rewrite (E s A). cbn [bind].
  apply K. destruct A as (R & P & VS & RT). subst vs. split; [apply zrel_var; exact R|auto].
Qed.
Lemma Zt_load : forall g vs rt x o f a l Q, zctx g -> okf (facet_Resolve f (q_bits o)) = true ->
  ldok g o (facet_type (facet_Resolve f (q_bits o))) a ->
  (let t := facet_type (facet_Resolve f (q_bits o)) in Zt g (upd_var vs x (V t (trunc (tsize t) (s_val g o)))) rt l Q) ->
  Zt g vs rt (qload c cfg kc x o f a ++ l) Q.
Proof.
  intros g vs rt x o f a l Q C O L K. unfold qload. set (f' := facet_Resolve f (q_bits o)) in *. cbn zeta in K.
  destruct o as [|w n|w r|w m|w v]; try contradiction L; cbn [app ldok s_val] in *.
  - eapply Zt_let; [|exact K]. intros s ([R RQ] & _). unfold ev, rG. cbn [eval leaf_val].
    rewrite (proj1 (RQ n (okr_range _ L))). rewrite get_okf by assumption. reflexivity.
  - eapply Zt_let; [|exact K]. intros s ([R RQ] & _). unfold ev, rG. cbn [eval leaf_val].
    rewrite (xr_r _ _ R r (okr_range _ L)). rewrite get_okf by assumption. reflexivity.
  - destruct L as (W & GM & L & AL). intros s A. pose proof (ev_sAddr s g m vs rt A C W GM) as E.
    cbn [arun aok run1]. rewrite E. cbn [bind]. rewrite AL, Z.eqb_refl. cbn [bind load_rv].
    destruct A as (R & P & VS & RT). rewrite load_rd, (rd_mem_ext _ _ _ _ (xr_m _ _ (proj1 R))).
    assert (B : rd_mem (y_m (z_x g)) (ea (z_x g) m) (nbytes (facet_type f')) =
                trunc (tsize (facet_type f')) (rd_mem (y_m (z_x g)) (ea (z_x g) m) (Z.to_nat (w / 8)))).
    { unfold okf in O. rewrite (rd_mem_low _ _ (nbytes (facet_type f')) (Z.to_nat (w / 8))) by (unfold nbytes; lia).
      f_equal. unfold nbytes. lia. }
    rewrite B. apply K. split; [apply zrel_var; exact R|]. subst vs. auto.
Qed.

(** *** Stores *)
Lemma PCV : forall g, zctx g -> pc_value c (PcConst pc) 0 = Ok (V (TInt 64) (y_ip (z_x g))).
Proof. intros g [IP _]. cbn [pc_value]. rewrite Z.add_0_r, IP. reflexivity. Qed.
Lemma Zt_nil : forall g vs rt, zctx g -> Zt g vs rt [] (zdone g rt).
Proof. intros g vs rt C s (R & P & VS & RT). exists s. split; [reflexivity|]. split; [exact R|]. rewrite P. split; [apply PCV; exact C|exact RT]. Qed.
(** What a value of type [t] makes of an XMM register that held [a]. *)
Definition stored (t : ty) (a z r : Z) : Prop :=
  inr (tsize t) z /\ (tsize t = 128 /\ r = z \/ 0 <= tsize t < 128 /\ r = low (tsize t) a z).
Lemma native_vec : forall n, native_size (c_arch c) (VEC n) = 128.
Proof. intros. rewrite HA. reflexivity. Qed.
Lemma Zt_put : forall g vs rt w d t e a z r l Q, okr d = true -> pv c vs e (V t z) -> stored t (z_q g d) z r ->
  Zt (set_q g d r) vs rt l Q -> Zt g vs rt (qstore c cfg kc (QX w d) t e a ++ l) Q.
Proof.
  intros g vs rt w d t e a z r l Q N E [I S] K s (R & P & VS & RT). apply okr_range in N.
  cbn [qstore app arun aok bind run1]. rewrite (E s VS). cbn [bind merge_cell]. rewrite native_vec.
  destruct R as [RX RQ]. destruct (RQ d N) as [EQ IQ]. destruct S as [[T ->]|[T ->]].
  - rewrite T in *. cbn [Z.leb Z.compare Pos.compare Pos.compare_cont]. rewrite trunc_small by exact I.
    apply K. split; [apply zrel_q; [split; assumption|exact I]|auto].
  - replace (128 <=? tsize t) with false by lia. rewrite EQ, merge_low by (assumption || lia).
    apply K. split; [apply zrel_q; [split; assumption|apply low_inr; [lia|assumption]]|auto].
Qed.
Lemma Zt_stm : forall g vs rt w m t e al z v a, zctx g -> wf_mem m = true -> good_mem cfg (m_seg m) m = true ->
  pv c vs e (V t z) -> a = ea (z_x g) m -> a mod al = 0 -> z = trunc w v -> tsize t = w -> 0 <= w <= 128 -> w mod 8 = 0 ->
  Zt g vs rt [(al, SStore e (sAddr c cfg kc m))] (zdone (set_x g (set_m (z_x g) (wr_mem (y_m (z_x g)) a (Z.to_nat (w / 8)) v))) rt).
Proof.
  intros g vs rt w m t e al z v a C W GM E EA AL Z T WR W8 s A. pose proof (ev_sAddr s g m vs rt A C W GM) as EE.
  destruct A as (R & P & VS & RT). cbn [arun aok run1]. rewrite EE. cbn [bind]. rewrite <- EA, AL, Z.eqb_refl.
  rewrite (E s VS). cbn [bind store_rv]. eexists. split; [reflexivity|]. split; [|split].
  - apply zrel_mem; [exact R|]. intros x. rewrite store_wr by (unfold nbytes; lia). unfold nbytes. rewrite T.
    apply wr_mem_ext; [apply R|]. intros k Hk. subst z. apply byte_trunc; lia.
  - cbn [with_mem s_pc set_x z_x set_m y_ip]. rewrite P. exact (PCV g C).
  - exact RT.
Qed.
Lemma Zt_gp : forall g vs rt r e t z, zctx g -> okr r = true -> pv c vs e (V t z) -> inr 64 z ->
  Zt g vs rt [(1, SSet (GP r) e)] (zdone (set_x g (wr_reg (z_x g) 64 r z)) rt).
Proof.
  intros g vs rt r e t z C N E I s (R & P & VS & RT). apply okr_range in N. cbn [arun aok bind run1]. rewrite (E s VS). cbn [bind set_cell].
  rewrite HA. cbn [native_size]. rewrite trunc_small by exact I. eexists. split; [reflexivity|]. split; [|split].
  - apply zrel_gp; assumption.
  - cbn [with_reg s_pc]. rewrite P. exact (PCV g C).
  - exact RT.
Qed.
Lemma zctx_q : forall g d r, zctx g -> zctx (set_q g d r).
Proof. intros g d r C. exact C. Qed.

(** *** Instructions "xmm, operand" *)
(** Value of [e] with temporaries 1 and 2 of the given types. *)
Definition val2 (t1 t2 : ty) (a b : Z) (e : dexp) (t : ty) (z : Z) : Prop :=
  forall vs, vs 1%nat = Some (V t1 (trunc (tsize t1) a)) -> vs 2%nat = Some (V t2 (trunc (tsize t2) b)) -> pv c vs e (V t z).
Definition val1 (t1 : ty) (a : Z) (e : dexp) (t : ty) (z : Z) : Prop :=
  forall vs, vs 1%nat = Some (V t1 (trunc (tsize t1) a)) -> pv c vs e (V t z).
Lemma rm2_ok : forall g vs rt w d o f0 f1 a0 a1 t e al z r,
  let o0 := QX w d in
  zctx g -> okr d = true ->
  okf (facet_Resolve f0 w) = true -> okf (facet_Resolve f1 (q_bits o)) = true ->
  ldok g o (facet_type (facet_Resolve f1 (q_bits o))) a1 ->
  val2 (facet_type (facet_Resolve f0 w)) (facet_type (facet_Resolve f1 (q_bits o))) (z_q g d) (s_val g o) e t z ->
  stored t (z_q g d) z r ->
  Zt g vs rt (qload c cfg kc 1 o0 f0 a0 ++ qload c cfg kc 2 o f1 a1 ++ qstore c cfg kc o0 t e al) (zdone (set_q g d r) rt).
Proof.
  intros g vs rt w d o f0 f1 a0 a1 t e al z r o0 C N O0 O1 L E S. subst o0.
  eapply Zt_load; [exact C|exact O0|exact N|]. cbn zeta. eapply Zt_load; [exact C|exact O1|exact L|]. cbn zeta.
  rewrite <- (app_nil_r (qstore _ _ _ _ _ _ _)). eapply Zt_put; [exact N| |exact S|apply Zt_nil; exact C].
  apply E; reflexivity.
Qed.
(** Operands swapped. *)
Lemma rm2s_ok : forall g vs rt w d o f0 f1 a0 a1 t e al z r,
  let o0 := QX w d in
  zctx g -> okr d = true ->
  okf (facet_Resolve f0 w) = true -> okf (facet_Resolve f1 (q_bits o)) = true ->
  ldok g o (facet_type (facet_Resolve f1 (q_bits o))) a1 ->
  val2 (facet_type (facet_Resolve f1 (q_bits o))) (facet_type (facet_Resolve f0 w)) (s_val g o) (z_q g d) e t z ->
  stored t (z_q g d) z r ->
  Zt g vs rt (qload c cfg kc 1 o f1 a1 ++ qload c cfg kc 2 o0 f0 a0 ++ qstore c cfg kc o0 t e al) (zdone (set_q g d r) rt).
Proof.
  intros g vs rt w d o f0 f1 a0 a1 t e al z r o0 C N O0 O1 L E S. subst o0.
  eapply Zt_load; [exact C|exact O1|exact L|]. cbn zeta. eapply Zt_load; [exact C|exact O0|exact N|]. cbn zeta.
  rewrite <- (app_nil_r (qstore _ _ _ _ _ _ _)). eapply Zt_put; [exact N| |exact S|apply Zt_nil; exact C].
  apply E; reflexivity.
Qed.
Lemma rm1_ok : forall g vs rt w d o f1 a1 t e al z r,
  let o0 := QX w d in
  zctx g -> okr d = true -> okf (facet_Resolve f1 (q_bits o)) = true ->
  ldok g o (facet_type (facet_Resolve f1 (q_bits o))) a1 ->
  val1 (facet_type (facet_Resolve f1 (q_bits o))) (s_val g o) e t z -> stored t (z_q g d) z r ->
  Zt g vs rt (qload c cfg kc 1 o f1 a1 ++ qstore c cfg kc o0 t e al) (zdone (set_q g d r) rt).
Proof.
  intros g vs rt w d o f1 a1 t e al z r o0 C N O1 L E S. subst o0.
  eapply Zt_load; [exact C|exact O1|exact L|]. cbn zeta.
  rewrite <- (app_nil_r (qstore _ _ _ _ _ _ _)). eapply Zt_put; [exact N| |exact S|apply Zt_nil; exact C].
  apply E; reflexivity.
Qed.
(** Instructions "operand, xmm" with a memory or general-purpose destination. *)
Lemma out_mem : forall g vs rt o m f1 a1 t e al z v w, zctx g -> okf (facet_Resolve f1 (q_bits o)) = true ->
  ldok g o (facet_type (facet_Resolve f1 (q_bits o))) a1 ->
  val1 (facet_type (facet_Resolve f1 (q_bits o))) (s_val g o) e t z ->
  wf_mem m = true -> good_mem cfg (m_seg m) m = true -> ea (z_x g) m mod al = 0 -> z = trunc w v -> tsize t = w -> 0 <= w <= 128 -> w mod 8 = 0 ->
  Zt g vs rt (qload c cfg kc 1 o f1 a1 ++ [(al, SStore e (sAddr c cfg kc m))])
    (zdone (set_x g (set_m (z_x g) (wr_mem (y_m (z_x g)) (ea (z_x g) m) (Z.to_nat (w / 8)) v))) rt).
Proof.
  intros. eapply Zt_load; [assumption|assumption|eassumption|]. cbn zeta. eapply Zt_stm; try eassumption; [|reflexivity].
  apply H3. reflexivity.
Qed.
Lemma out_gp : forall g vs rt o r f1 a1 t e z, zctx g -> okf (facet_Resolve f1 (q_bits o)) = true ->
  ldok g o (facet_type (facet_Resolve f1 (q_bits o))) a1 ->
  val1 (facet_type (facet_Resolve f1 (q_bits o))) (s_val g o) e t z -> okr r = true -> inr 64 z ->
  Zt g vs rt (qload c cfg kc 1 o f1 a1 ++ [(1, SSet (GP r) e)]) (zdone (set_x g (wr_reg (z_x g) 64 r z)) rt).
Proof.
  intros. eapply Zt_load; [assumption|assumption|eassumption|]. cbn zeta. eapply Zt_gp; try eassumption.
  apply H3. reflexivity.
Qed.
End Sim.
