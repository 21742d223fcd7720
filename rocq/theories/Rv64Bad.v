(** RV64 instructions whose lifting deviates from the ISA, characterised for all
    states, and the unconditional facts about division. *)

From Coq Require Import ZArith Lia ZifyBool List Bool.
From Verif Require Import Bits IR Facet Dsl Rv64 Rv64Spec Rv64Sim Rv64Arith Rv64Int Rv64Bit Rv64Mem Rv64Fp Rv64Step.
Import ListNotations.
Open Scope Z_scope.
Ltac Zify.zify_post_hook ::= Z.div_mod_to_equations.

(** The lifted code runs normally but does not reach the guest state [g']. *)
Definition misses `{FpuOps} (c : cenv) (cfg : lcfg) (kc : areg -> konst) (i : rvinst) (s : st) (g' : gst) : Prop :=
  exists l s', lift_rv64 c cfg kc None i = Some (true, l) /\ run c s l = Ok s' /\ ~ (rel s' g' /\ pc_at c s' g').

Definition differs (g1 g2 : gst) : Prop :=
  (exists n, n <> 0 /\ g_x g1 n <> g_x g2 n) \/ (exists n, g_f g1 n <> g_f g2 n) \/
  (exists x, g_mem g1 x <> g_mem g2 x) \/ g_pc g1 <> g_pc g2.

Lemma lifts_to_misses : forall `{FpuOps} c cfg kc i s g1 g2 p,
  lifts_to c cfg kc i s g1 p -> differs g1 g2 -> misses c cfg kc i s g2.
Proof.
  intros F c cfg kc i s g1 g2 p (l & s' & L & RN & R1 & P1 & _) D.
  exists l, s'. split; [assumption|]. split; [assumption|]. intros [R2 P2].
  destruct D as [(n & N & D)|[(n & D)|[(x & D)|D]]]; apply D.
  - pose proof (rel_x _ _ R1 n N). pose proof (rel_x _ _ R2 n N). congruence.
  - pose proof (rel_f _ _ R1 n). pose proof (rel_f _ _ R2 n). congruence.
  - rewrite <- (rel_m _ _ R1 x). apply (rel_m _ _ R2).
  - unfold pc_at in *. congruence.
Qed.

Lemma wx_at : forall g rd v pc, rd <> 0 -> g_x (wpc (wx g rd v) pc) rd = U 64 v.
Proof. intros. unfold wx. destruct (rd =? 0) eqn:E; [lia|]. cbn [wpc g_x]. rewrite Z.eqb_refl. reflexivity. Qed.
Lemma wx_differs : forall g rd v v' pc pc', rd <> 0 -> U 64 v <> U 64 v' ->
  differs (wpc (wx g rd v) pc) (wpc (wx g rd v') pc').
Proof. intros. left. exists rd. split; [assumption|]. rewrite !wx_at by assumption. assumption. Qed.

Lemma nanbox_ne : forall z, U 32 z <> nanbox z.
Proof.
  intros z. unfold nanbox. change U with trunc. pose proof (trunc_range 32 z ltac:(lia)) as [? ?]. lia.
Qed.
Lemma pow_ne : forall k, 0 <= k <= 9 -> U 64 k <> U 64 (2^k).
Proof.
  intros k K.
  assert (C : k = 0 \/ k = 1 \/ k = 2 \/ k = 3 \/ k = 4 \/ k = 5 \/ k = 6 \/ k = 7 \/ k = 8 \/ k = 9) by lia.
  destruct C as [->|[->|[->|[->|[->|[->|[->|[->|[->| ->]]]]]]]]]; discriminate.
Qed.
Lemma fclass_rng : forall w m x, 0 <= fclass w m x <= 9.
Proof.
  intros. unfold fclass. repeat match goal with |- context [if ?b then _ else _] => destruct b end; lia.
Qed.
Lemma neg_ne : forall w x, 1 < w -> - 2^(w-1) < x < 2^(w-1) -> x <> 0 -> trunc w x <> trunc w (- x).
Proof.
  intros w x W B N E. unfold trunc in E. pose proof (pow2_pos (w-1) ltac:(lia)).
  rewrite (pow2_succ w) in E by lia. set (h := 2^(w-1)) in *.
  pose proof (Z_div_mod_eq_full x (2*h)). pose proof (Z_div_mod_eq_full (-x) (2*h)). rewrite E in H0.
  assert (2 * x = 2 * h * (x / (2*h) - (-x) / (2*h))) by lia.
  set (q := x / (2*h) - (-x) / (2*h)) in *. assert (q = 0) by nia. subst. lia.
Qed.

Lemma clmulr_ne : forall p a, 0 <= p < 2^(64 + 63) -> inr 64 a -> a <> 0 ->
  U 64 (p / 2^63) <> U 64 (Z.lxor p (a * 2^63) / 2^63).
Proof.
  intros p a CB IA N.
  rewrite <- !Z.shiftr_div_pow2 by lia. rewrite Z.shiftr_lxor, (Z.shiftr_div_pow2 (a * 2^63)), Z_div_mult_full by lia.
  assert (IQ : inr 64 (Z.shiftr p 63)).
  { rewrite Z.shiftr_div_pow2 by lia. rewrite Z.pow_add_r in CB by lia.
    split; [apply Z.div_pos; lia|apply Z.div_lt_upper_bound; lia]. }
  set (q := Z.shiftr p 63) in *. clearbody q.
  change U with trunc. rewrite (trunc_small 64 q IQ), (trunc_small 64 (Z.lxor q a)) by (apply lxor_inr; (lia || assumption)).
  intro E. apply N. assert (Z.lxor q (Z.lxor q a) = 0) by (rewrite <- E; apply Z.lxor_nilpotent).
  rewrite <- Z.lxor_assoc, Z.lxor_nilpotent, Z.lxor_0_l in H. assumption.
Qed.
Lemma isa_step_bit : forall i g v, isa_int (r_mn i) (rx g (r_rs1 i)) (rx g (r_rs2 i)) (r_imm i) (g_pc g) = None ->
  isa_bit (r_mn i) (rx g (r_rs1 i)) (rx g (r_rs2 i)) (r_imm i) = Some v ->
  isa_step i g = Some (wpc (wx g (r_rd i) v) (g_pc g + r_len i)).
Proof. intros i g v A B. unfold isa_step. rewrite A, B. reflexivity. Qed.
Lemma some_gst_inj : forall x y : gst, Some x = Some y -> y = x.
Proof. intros. congruence. Qed.

Section Bad.
Context `{FpuOps}.
Variable c : cenv.
Hypothesis HA : c_arch c = RV64.
Hypothesis GB : gbase_ok c.
Variable cfg : lcfg.
Variable kc : areg -> konst.
Variable i : rvinst.
Variable s : st.
Variable g g' : gst.
Hypothesis R : rel s g.
Hypothesis KC : kc_sound kc s.
Hypothesis PC : g_pc g = addr_pc_base c (r_start i).
Hypothesis ST : isa_step i g = Some g'.

(** Division never is undefined, and the result is the ISA's, except that a
    signed quotient by -1 is the dividend. *)
Definition div_mn (mn : rvmnem) : option (binop * facet) :=
  match mn with
  | R_DIV => Some (SDiv, I64) | R_DIVU => Some (UDiv, I64) | R_REM => Some (SRem, I64) | R_REMU => Some (URem, I64)
  | R_DIVW => Some (SDiv, I32) | R_DIVUW => Some (UDiv, I32) | R_REMW => Some (SRem, I32) | R_REMUW => Some (URem, I32)
  | _ => None
  end.
Definition div_result (op : binop) (w x y : Z) : Z :=
  match op with
  | SDiv => if S_ w y =? -1 then S_ w x else S_ w (sdiv (S_ w x) (S_ w y))
  | SRem => S_ w (srem (S_ w x) (S_ w y))
  | UDiv => S_ w (udiv (U w x) (U w y))
  | _ => S_ w (urem (U w x) (U w y))
  end.
Lemma m1_iff : forall w y, 1 < w -> (S_ w y =? -1) = (trunc w y =? 2^w - 1).
Proof.
  intros w y W. rewrite S_sgn. pose proof (trunc_range w y ltac:(lia)) as I.
  unfold sgn. pose proof (pow2_pos (w-1) ltac:(lia)). unfold inr in I. rewrite (pow2_succ w) in * by lia.
  destruct (trunc w y <? 2^(w-1)) eqn:E; lia.
Qed.
Lemma div_total : forall op f, div_mn (r_mn i) = Some (op, f) ->
  lifts_to c cfg kc i s
    (wpc (wx g (r_rd i) (div_result op (facet_size f) (rx g (r_rs1 i)) (rx g (r_rs2 i)))) (g_pc g + r_len i))
    (PcConst (r_end i)).
Proof.
  intros op f E.
  assert (O : In op [UDiv; URem; SDiv; SRem]) by (destruct (r_mn i); try discriminate E; injection E as <- _; cbn; tauto).
  assert (F : f = I64 \/ f = I32) by (destruct (r_mn i); try discriminate E; injection E as _ <-; tauto).
  apply (div_any c cfg kc i s g R PC op f (facet_size f)); try assumption; try reflexivity.
  { unfold lift_mnem. destruct (r_mn i); try discriminate E; injection E as <- <-; reflexivity. }
  set (w := facet_size f). assert (W : 1 < w <= 64) by (destruct F as [-> | ->]; cbv; split; congruence).
  clearbody w. set (x := rx g (r_rs1 i)). set (y := rx g (r_rs2 i)).
  assert (Q : forall z, sext w 64 (trunc w z) = U 64 (S_ w z)) by (intro z; reflexivity).
  assert (ST2 : forall z, S_ w (trunc w z) = S_ w z) by (intro z; apply S_congr, trunc_trunc; lia).
  cbn [In] in O. destruct O as [<-|[<-|[<-|[<-|[]]]]]; unfold div_impl, div_spec, div_result.
  - rewrite Q. reflexivity.
  - rewrite Q. reflexivity.
  - rewrite !ST2. rewrite <- (m1_iff w y) by lia. destruct (S_ w y =? -1).
    + reflexivity.
    + rewrite Q. reflexivity.
  - rewrite !ST2, Q. reflexivity.
Qed.

(** Signed quotient by -1. *)
Lemma div_minus_one_misses : forall f, div_mn (r_mn i) = Some (SDiv, f) -> r_rd i <> 0 ->
  S_ (facet_size f) (rx g (r_rs2 i)) = -1 ->
  S_ (facet_size f) (rx g (r_rs1 i)) <> 0 -> S_ (facet_size f) (rx g (r_rs1 i)) <> - 2^(facet_size f - 1) ->
  misses c cfg kc i s g'.
Proof.
  intros f E D Y X1 X2. eapply lifts_to_misses; [apply (div_total SDiv f E)|].
  assert (G : g' = wpc (wx g (r_rd i) (S_ (facet_size f) (sdiv (S_ (facet_size f) (rx g (r_rs1 i))) (S_ (facet_size f) (rx g (r_rs2 i))))))
                (g_pc g + r_len i) \/
              g' = wpc (wx g (r_rd i) (sdiv (S_ (facet_size f) (rx g (r_rs1 i))) (S_ (facet_size f) (rx g (r_rs2 i)))))
                (g_pc g + r_len i) /\ f = I64).
  { unfold isa_step in ST. destruct (r_mn i); try discriminate E; cbn [isa_int] in ST; injection ST as <-; injection E as <-; tauto. }
  assert (F : f = I64 \/ f = I32) by (destruct (r_mn i); try discriminate E; injection E as <-; tauto).
  cbn [div_result]. rewrite Y. change (-1 =? -1) with true. cbv iota.
  set (w := facet_size f) in *. assert (W : 1 < w <= 64) by (destruct F as [-> | ->]; cbv; split; congruence).
  rewrite Y in G.
  set (x := S_ w (rx g (r_rs1 i))) in *.
  assert (B : - 2^(w-1) <= x < 2^(w-1)) by (subst x; rewrite S_sgn; apply sgn_range; [lia|apply trunc_range; lia]).
  assert (SD : sdiv x (-1) = - x).
  { unfold sdiv. change (-1 =? 0) with false. cbv iota. change (-1) with (- (1)).
    rewrite Z.quot_opp_r, Z.quot_1_r by lia. reflexivity. }
  rewrite SD in G.
  assert (H2 : 2^(w-1) <= 2^63) by (apply Z.pow_le_mono_r; lia).
  destruct G as [-> | [-> Q]].
  - apply wx_differs; [assumption|]. change U with trunc. intro Z1.
    assert (SS : S_ w (-x) = -x). { pose proof (pow2_pos (w-1) ltac:(lia)). unfold S_. rewrite (pow2_succ w) by lia. destruct ((- x) mod (2 * 2^(w-1)) <? 2^(w-1)) eqn:L; 
      [assert (D1 : (-x) mod (2 * 2^(w-1)) = (-x) \/ (-x) mod (2 * 2^(w-1)) = -x + 2 * 2^(w-1))|assert (D1 : (-x) mod (2 * 2^(w-1)) = (-x) \/ (-x) mod (2 * 2^(w-1)) = -x + 2 * 2^(w-1))].
      - destruct (-x <? 0) eqn:S; [right; symmetry; apply Z.mod_unique with (q := -1); lia|left; apply Z.mod_small; lia].
      - lia.
      - destruct (-x <? 0) eqn:S; [right; symmetry; apply Z.mod_unique with (q := -1); lia|left; apply Z.mod_small; lia].
      - lia. }
    rewrite SS in Z1. revert Z1. apply neg_ne; [lia| |assumption]. change (64 - 1) with 63. lia.
  - subst f. change (facet_size I64) with 64 in *. apply wx_differs; [assumption|]. change U with trunc.
    apply neg_ne; [lia| |assumption]. change (64 - 1) with 63 in *. subst w. change (64 - 1) with 63 in *. lia.
Qed.

(** Single-precision results are never NaN-boxed. *)
Lemma fps_misses : forall z, isa_fps i g (U 32 (g_f g (r_rs1 i))) (U 32 (g_f g (r_rs2 i))) = Some z ->
  misses c cfg kc i s g'.
Proof.
  intros z E. eapply lifts_to_misses; [apply (fps_correct c HA GB cfg kc i s g R KC PC z E)|].
  right; left. exists (r_rd i).
  assert (G : exists z', g' = wpc (wf g (r_rd i) (nanbox z')) (g_pc g + r_len i)).
  { unfold isa_step in ST. unfold isa_fps in *. destruct (r_mn i) eqn:M; try discriminate E;
    cbn [isa_int isa_bit isa_load isa_store isa_lr isa_sc isa_amo isa_branch] in ST; unfold isa_fpd in ST; rewrite M in ST;
    injection ST as <-; eexists; reflexivity. }
  destruct G as [z' ->]. cbn [wpc wf g_f]. rewrite Z.eqb_refl.
  unfold nanbox. change U with trunc. pose proof (trunc_range 32 z ltac:(lia)) as [? ?]. pose proof (trunc_range 32 z' ltac:(lia)) as [? ?]. lia.
Qed.

(** FCLASS yields the class index, never the one-hot mask. *)
Lemma fclassd_misses : r_mn i = R_FCLASSD -> r_rd i <> 0 -> misses c cfg kc i s g'.
Proof.
  intros M D. eapply lifts_to_misses.
  - apply (fclass_goal c cfg kc i s g R PC I64 64 52); [tauto|]. unfold lift_mnem. rewrite M. reflexivity.
  - unfold isa_step, isa_fpd, isa_fps in ST. rewrite M in ST.
    cbn [isa_int isa_bit isa_load isa_store isa_lr isa_sc isa_amo isa_branch] in ST. injection ST as <-.
    apply wx_differs; [assumption|]. change (U 64 (g_f g (r_rs1 i))) with (trunc 64 (g_f g (r_rs1 i))).
    rewrite (trunc_small 64 (g_f g (r_rs1 i))) by apply R. apply pow_ne, fclass_rng.
Qed.
Lemma fclasss_misses : r_mn i = R_FCLASSS -> r_rd i <> 0 -> unbox (g_f g (r_rs1 i)) = U 32 (g_f g (r_rs1 i)) ->
  misses c cfg kc i s g'.
Proof.
  intros M D B. eapply lifts_to_misses.
  - apply (fclass_goal c cfg kc i s g R PC I32 32 23); [tauto|]. unfold lift_mnem. rewrite M. reflexivity.
  - unfold isa_step, isa_fpd, isa_fps in ST. rewrite M in ST.
    cbn [isa_int isa_bit isa_load isa_store isa_lr isa_sc isa_amo isa_branch] in ST. injection ST as <-.
    apply wx_differs; [assumption|]. rewrite B. apply pow_ne, fclass_rng.
Qed.

(** JALR to an odd sum keeps bit 0. *)
Lemma jalr_odd_misses : r_mn i = R_JALR -> r_rs1 i <> FRV_REG_INV -> jal_kind cfg i = JJump ->
  (rx g (r_rs1 i) + r_imm i) mod 2 = 1 -> misses c cfg kc i s g'.
Proof.
  intros M N K O. assert (D : jal_dec i) by (right; tauto).
  destruct (jal_body c cfg kc i s g R PC D) as (l & s1 & L & RN & R1 & P1 & X0 & RT & SP).
  rewrite K, app_nil_r in L. unfold misses, lift_rv64. rewrite L.
  eexists _, s1. split; [reflexivity|]. split; [exact RN|]. intros [_ P2].
  unfold isa_step in ST. rewrite M in ST.
  cbn [isa_int isa_bit isa_load isa_store isa_lr isa_sc isa_amo isa_branch] in ST. injection ST as <-.
  unfold pc_at in *. rewrite P1 in P2. cbn [wpc g_pc] in P2. unfold jal_target in P2.
  destruct (r_rs1 i =? FRV_REG_INV) eqn:Q; [lia|].
  assert (E : U 64 (rx g (r_rs1 i) + r_imm i) = U 64 (2 * ((rx g (r_rs1 i) + r_imm i) / 2))).
  { injection P2 as P3. exact P3. }
  set (x := rx g (r_rs1 i) + r_imm i) in *. unfold U in E.
  assert (A : x mod 2^64 mod 2 = (2 * (x / 2)) mod 2^64 mod 2) by congruence.
  change (2^64) with (2 * 2^63) in A. 
  assert (MM : forall y, y mod (2 * 2^63) mod 2 = y mod 2).
  { intro y. pose proof (Z_div_mod_eq_full y (2 * 2^63)). set (q := y / (2 * 2^63)) in *. set (r := y mod (2 * 2^63)) in *.
    replace y with (r + (q * 2^63) * 2) by lia. rewrite Z_mod_plus_full. reflexivity. }
  rewrite !MM in A. rewrite O in A. rewrite (Z.mul_comm 2), Z_mod_mult in A. discriminate.
Qed.

(** CLMULR ignores bit 63 of rs2. *)
Lemma clmulr_misses : r_mn i = R_CLMULR -> r_rd i <> 0 -> Z.testbit (rx g (r_rs2 i)) 63 = true ->
  rx g (r_rs1 i) <> 0 -> misses c cfg kc i s g'.
Proof.
  intros M D T N.
  assert (IA : inr 64 (rx g (r_rs1 i))) by apply (rx_inr s g _ R).
  assert (EI : isa_int (r_mn i) (rx g (r_rs1 i)) (rx g (r_rs2 i)) (r_imm i) (g_pc g) = None) by (rewrite M; reflexivity).
  assert (EB : isa_bit (r_mn i) (rx g (r_rs1 i)) (rx g (r_rs2 i)) (r_imm i)
               = Some (clprod (rx g (r_rs1 i)) (rx g (r_rs2 i)) 64 / 2^63)) by (rewrite M; reflexivity).
  assert (L : lift_mnem c cfg kc i = plain (LiftCLMul i CLMULR) i) by (unfold lift_mnem; rewrite M; reflexivity).
  rewrite (isa_step_bit i g _ EI EB) in ST. apply some_gst_inj in ST. rewrite ST.
  pose proof (view_sh i g CLMULR 63 _ (or_intror (or_introl eq_refl)) (clprod_bound i g 63 (rx g (r_rs1 i)) (rx g (r_rs2 i)) IA)) as VS.
  pose proof (clprod_bound i g 63 (rx g (r_rs1 i)) (rx g (r_rs2 i)) IA) as CB.
  pose proof (clprod_S (rx g (r_rs1 i)) (rx g (r_rs2 i)) 63) as CS.
  pose proof (cl_goal c cfg kc i s g R PC CLMULR) as CG.
  specialize (CG (clprod (rx g (r_rs1 i)) (rx g (r_rs2 i)) 63 / 2^63) 0%nat 63%nat L eq_refl eq_refl eq_refl VS).
  eapply lifts_to_misses; [exact CG|].
  apply wx_differs; [assumption|]. rewrite CS. change (Z.of_nat 63) with 63 in *. rewrite T.
  apply clmulr_ne; [exact CB|assumption|assumption].
Qed.
End Bad.
