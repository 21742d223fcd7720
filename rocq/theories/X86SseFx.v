(** FXSAVE, FXRSTOR and the stores of the floating-point control words. *)

From Coq Require Import ZArith Lia ZifyBool List Bool.
From Verif Require Import Bits IR Facet Dsl Rv64 Rv64Spec Rv64Sim Rv64Arith X86 X86Spec X86Arith X86Sim X86Ops X86Cond X86Sse X86SseSpec X86SseVec X86SseSim X86SseOps X86SseStep3 X86SseTop.
Import ListNotations.
Open Scope Z_scope.
Ltac Zify.zify_post_hook ::= Z.div_mod_to_equations.

(** ** Specification *)
(** Memory after the legacy area [ctl] (160 bytes: control and status words,
    x87 registers) and the first [n] XMM registers are saved at [a]. *)
Fixpoint fx_area (m : bytes) (ctl : Z) (q : Z -> Z) (a : Z) (n : nat) : bytes :=
  match n with
  | O => wr_mem m a 160 ctl
  | S k => wr_mem (fx_area m ctl q a k) (a + 160 + 16 * Z.of_nat k) 16 (q (Z.of_nat k))
  end.
(** The XMM registers found in a save area at [a]. *)
Definition fx_load (g : zst) (a : Z) : zst :=
  Zst (z_x g) (fun k => if (0 <=? k) && (k <? 16) then rd_mem (y_m (z_x g)) (a + 160 + 16 * k) 16 else z_q g k).
(** Memory after FXSAVE. *)
Definition fx_save (g : zst) (ctl a : Z) : zst := set_x g (set_m (z_x g) (fx_area (y_m (z_x g)) ctl (z_q g) a 16)).

(** Byte [o] of the area. *)
Lemma fx_area_byte : forall m ctl q a n o, (n <= 16)%nat -> 0 <= o < 2 ^ 64 ->
  fx_area m ctl q a n (U 64 (a + o)) =
  if o <? 160 then (ctl / 256 ^ o) mod 256
  else if o <? 160 + 16 * Z.of_nat n then (q ((o - 160) / 16) / 256 ^ ((o - 160) mod 16)) mod 256
  else m (U 64 (a + o)).
Proof.
  intros m ctl q a n o N O. induction n as [|n IH]; cbn [fx_area].
  - unfold wr_mem. assert (K : U 64 (U 64 (a + o) - a) = o).
    { unfold U. rewrite Zminus_mod_idemp_l. replace (a + o - a) with o by lia. apply Z.mod_small. lia. }
    rewrite K. assert (R : 0 <= U 64 (a + o) < 2 ^ 64) by (apply Z.mod_pos_bound; lia).
    change (Z.of_nat 160) with 160. change (Z.of_nat 0) with 0.
    replace ((0 <=? U 64 (a + o))) with true by lia. replace (U 64 (a + o) <? 2 ^ 64) with true by lia.
    rewrite !andb_true_r. destruct (Z.ltb_spec o 160); [reflexivity|]. replace (o <? 160 + 16 * 0) with false by lia. reflexivity.
  - specialize (IH ltac:(lia)). unfold wr_mem at 1. set (b := 160 + 16 * Z.of_nat n) in *.
    assert (K : U 64 (U 64 (a + o) - (a + 160 + 16 * Z.of_nat n)) = U 64 (o - b)).
    { unfold U. rewrite Zminus_mod_idemp_l. f_equal. lia. }
    rewrite K. assert (R : 0 <= U 64 (a + o) < 2 ^ 64) by (apply Z.mod_pos_bound; lia).
    change (Z.of_nat 16) with 16.
    replace ((0 <=? U 64 (a + o))) with true by lia. replace (U 64 (a + o) <? 2 ^ 64) with true by lia. rewrite !andb_true_r.
    destruct (Z.leb_spec b o) as [L|L].
    + assert (X : U 64 (o - b) = o - b) by (apply Z.mod_small; lia). rewrite X. replace (o <? 160) with false by lia.
      destruct (Z.ltb_spec (o - b) 16) as [L1|L1].
      * replace (o <? 160 + 16 * Z.of_nat (S n)) with true by lia.
        replace ((o - 160) / 16) with (Z.of_nat n) by lia. replace ((o - 160) mod 16) with (o - b) by lia. reflexivity.
      * rewrite IH. replace (o <? 160) with false by lia. replace (o <? b) with false by lia.
        replace (o <? 160 + 16 * Z.of_nat (S n)) with false by lia. reflexivity.
    + assert (X : U 64 (o - b) = o - b + 2 ^ 64) by (unfold U; symmetry; apply (Z.mod_unique _ _ (-1)); lia).
      rewrite X. replace (o - b + 2 ^ 64 <? 16) with false by lia. rewrite IH.
      destruct (o <? 160); [reflexivity|]. replace (o <? b) with true by lia. replace (o <? 160 + 16 * Z.of_nat (S n)) with true by lia. reflexivity.
Qed.
Lemma rd_mem_addr : forall n m a, rd_mem m (U 64 a) n = rd_mem m a n.
Proof.
  induction n as [|n IH]; intros m a; [reflexivity|]. cbn [rd_mem]. rewrite IH. do 4 f_equal. unfold U. rewrite Zplus_mod_idemp_l. reflexivity.
Qed.
Lemma rd_mem_bytes : forall n m m' a, (forall k, 0 <= k < Z.of_nat n -> m (U 64 (a + k)) = m' (U 64 (a + k))) -> rd_mem m a n = rd_mem m' a n.
Proof.
  induction n as [|n IH]; intros m m' a E; [reflexivity|]. cbn [rd_mem]. rewrite (IH m m') by (intros; apply E; lia). rewrite E by lia. reflexivity.
Qed.
Lemma wr_byte : forall m a N v k, 0 <= k < Z.of_nat N -> Z.of_nat N <= 2 ^ 64 -> wr_mem m a N v (U 64 (a + k)) = (v / 256 ^ k) mod 256.
Proof.
  intros m a N v k K B. unfold wr_mem. assert (X : U 64 (U 64 (a + k) - a) = k).
  { unfold U. rewrite Zminus_mod_idemp_l. replace (a + k - a) with k by lia. apply Z.mod_small. lia. }
  rewrite X. assert (R : 0 <= U 64 (a + k) < 2 ^ 64) by (apply Z.mod_pos_bound; lia).
  replace ((k <? Z.of_nat N) && (0 <=? U 64 (a + k)) && (U 64 (a + k) <? 2 ^ 64)) with true by lia. reflexivity.
Qed.
Lemma fx_area_xmm : forall m ctl q a k, 0 <= k < 16 -> inr 128 (q k) -> rd_mem (fx_area m ctl q a 16) (a + 160 + 16 * k) 16 = q k.
Proof.
  intros m ctl q a k K I. rewrite (rd_mem_bytes 16 _ (wr_mem m (a + 160 + 16 * k) 16 (q k))).
  - rewrite rd_wr_same by lia. change (256 ^ Z.of_nat 16) with (2 ^ 128). apply Z.mod_small. exact I.
  - intros j J. rewrite wr_byte by lia. replace (a + 160 + 16 * k + j) with (a + (160 + 16 * k + j)) by lia.
    rewrite fx_area_byte by lia. change (Z.of_nat 16) with 16 in *. replace (160 + 16 * k + j <? 160) with false by lia.
    replace (160 + 16 * k + j <? 160 + 16 * 16) with true by lia.
    replace ((160 + 16 * k + j - 160) / 16) with k by lia. replace ((160 + 16 * k + j - 160) mod 16) with j by lia. reflexivity.
Qed.
Lemma fx_area_ctl : forall m ctl q a o n, 0 <= o -> o + Z.of_nat n <= 160 -> rd_mem (fx_area m ctl q a 16) (a + o) n = (ctl / 256 ^ o) mod 256 ^ Z.of_nat n.
Proof.
  intros m ctl q a o n O L. rewrite (rd_mem_bytes n _ (wr_mem m (a + o) n (ctl / 256 ^ o))).
  - apply rd_wr_same; lia.
  - intros j J. rewrite wr_byte by lia. replace (a + o + j) with (a + (o + j)) by lia.
    rewrite fx_area_byte by lia. replace (o + j <? 160) with true by lia. rewrite Z.pow_add_r, Z.div_div by lia. reflexivity.
Qed.

(** ** Simulation *)
Record fx_ctx (c : cenv) (cfg : xcfg) (kc : areg -> konst) (i : sinst) (m : xmem) (s : st) (g : zst) : Prop := FxCtx {
  fc_arch : c_arch c = X86_64;
  fc_gb : gbase_ok c;
  fc_rel : zrel s g;
  fc_op : exists w, i_op0 i = QM w m;
  fc_wf : wf_mem m = true;
  fc_good : good_mem cfg (m_seg m) m = true;
  fc_kc : xkc_sound kc (z_x g);
  fc_ip : y_ip (z_x g) = addr_pc_base c (i_start i);
}.
Section Fx.
Context `{FpuOps}.
Variable c : cenv.
Variable cfg : xcfg.
Variable kc : areg -> konst.
Notation PC i := (trunc 64 (i_start i + i_len i)).

Lemma fadv_ctx : forall i m s g, fx_ctx c cfg kc i m s g ->
  zctx c kc (PC i) (sadv i g) /\ ZAt (PC i) (sadv i g) (s_var s) (s_ret s) (with_pc s (PcConst (PC i))).
Proof.
  intros i m s g [HA GB [R Q] OP W GM KC IP]. split; [split|].
  - unfold sadv. cbn [set_x z_x set_ip y_ip]. rewrite IP, addr_pc_base_trunc, addr_pc_base_add. reflexivity.
  - exact KC.
  - split; [|repeat split]. split; [destruct R; split; assumption|exact Q].
Qed.
Lemma zrel_ext : forall s g g', zrel s g -> z_x g' = z_x g -> (forall n, 0 <= n < 16 -> z_q g' n = z_q g n) -> zrel s g'.
Proof. intros s g g' [R Q] X E. split; [rewrite X; exact R|]. intros n N. rewrite E by exact N. auto. Qed.
Lemma set_m_twice : forall x m m', set_m (set_m x m) m' = set_m x m'.
Proof. reflexivity. Qed.

Variable pc : Z.
Lemma ptr_off : forall s a o, Dsl.s_var s 1%nat = Some (V TPtr a) -> 0 <= o < 2 ^ 32 -> ev c s (eGep 1 v1 (cI 64 o)) = Ok (V TPtr (U 64 (a + o))).
Proof.
  intros s a o E O.
  assert (A : ev c s v1 = Ok (V TPtr a)) by (unfold v1, vX, ev; cbn [eval leaf_val]; rewrite E; reflexivity).
  rewrite (ev_gep c s 1 v1 (cI 64 o) a o A).
  - rewrite Z.mul_1_r. reflexivity.
  - unfold val, ev, cI. cbn [eval leaf_val tsize]. rewrite trunc_small by (unfold inr; lia). reflexivity.
Qed.
Lemma save_loop : forall g a n j vs rt s, (j + n <= 16)%nat -> a mod 16 = 0 -> vs 1%nat = Some (V TPtr a) ->
  ZAt pc (set_x g (set_m (z_x g) (fx_area (y_m (z_x g)) 0 (z_q g) a j))) vs rt s ->
  exists s', arun c s (map (fun k => (16, SStore (rG (VEC k) I128) (eGep 1 v1 (cI 64 (160 + 16 * k))))) (map Z.of_nat (seq j n))) = Ok s' /\
    ZAt pc (set_x g (set_m (z_x g) (fx_area (y_m (z_x g)) 0 (z_q g) a (j + n)))) vs rt s'.
Proof.
  intros g a n. induction n as [|n IH]; intros j vs rt s L AL VS A.
  - exists s. rewrite Nat.add_0_r. auto.
  - cbn [seq map arun aok]. pose proof A as (R & P & VE & RT).
    rewrite (ptr_off s a) by (try (rewrite VE; exact VS); lia). cbn [bind].
    assert (AM : U 64 (a + (160 + 16 * Z.of_nat j)) mod 16 = 0).
    { unfold U. change (2 ^ 64) with 18446744073709551616. lia. }
    rewrite AM, Z.eqb_refl. cbn [run1]. rewrite (ptr_off s a) by (try (rewrite VE; exact VS); lia).
    unfold ev at 1, rG. cbn [eval leaf_val]. destruct (proj2 R (Z.of_nat j) ltac:(lia)) as [EQ IQ]. cbn [set_x z_q] in EQ, IQ. rewrite EQ.
    rewrite get_okf by reflexivity. cbn [bind store_rv facet_type].
    destruct (IH (S j) vs rt (with_mem s (store_bytes (s_mem s) (U 64 (a + (160 + 16 * Z.of_nat j))) (nbytes (TInt 128)) (trunc (tsize (TInt 128)) (z_q g (Z.of_nat j)))))) as (s' & R1 & A1); try assumption; try lia.
    + split; [|auto]. cbn [fx_area].
      change (zrel (with_mem s (store_bytes (s_mem s) (U 64 (a + (160 + 16 * Z.of_nat j))) (nbytes (TInt 128)) (trunc (tsize (TInt 128)) (z_q g (Z.of_nat j)))))
        (set_x (set_x g (set_m (z_x g) (fx_area (y_m (z_x g)) 0 (z_q g) a j))) (set_m (z_x (set_x g (set_m (z_x g) (fx_area (y_m (z_x g)) 0 (z_q g) a j))))
          (wr_mem (fx_area (y_m (z_x g)) 0 (z_q g) a j) (a + 160 + 16 * Z.of_nat j) 16 (z_q g (Z.of_nat j)))))).
      apply zrel_mem; [exact R|]. intros x. change (nbytes (TInt 128)) with 16%nat. cbn [tsize]. rewrite (trunc_small 128 (z_q g (Z.of_nat j)) IQ).
      rewrite store_wr by lia. unfold wr_mem.
      assert (K : U 64 (x - U 64 (a + (160 + 16 * Z.of_nat j))) = U 64 (x - (a + 160 + 16 * Z.of_nat j))).
      { unfold U. rewrite Zminus_mod_idemp_r. f_equal. lia. }
      rewrite K. destruct (_ && _); [reflexivity|]. rewrite (xr_m _ _ (proj1 R) x). reflexivity.
    + exists s'. replace (j + S n)%nat with (S j + n)%nat by lia. auto.
Qed.
Lemma load_loop : forall g a n j vs rt s, (j + n <= 16)%nat -> a mod 16 = 0 -> vs 1%nat = Some (V TPtr a) ->
  c_arch c = X86_64 ->
  ZAt pc (Zst (z_x g) (fun k => if (0 <=? k) && (k <? Z.of_nat j) then rd_mem (y_m (z_x g)) (a + 160 + 16 * k) 16 else z_q g k)) vs rt s ->
  exists s' vs', arun c s (concat (map (fun k => [(16, SLoad 2 (facet_type V2I64) (eGep 1 v1 (cI 64 (160 + 16 * k)))); (1, SSet (VEC k) v2)]) (map Z.of_nat (seq j n)))) = Ok s' /\
    ZAt pc (Zst (z_x g) (fun k => if (0 <=? k) && (k <? Z.of_nat (j + n)) then rd_mem (y_m (z_x g)) (a + 160 + 16 * k) 16 else z_q g k)) vs' rt s'.
Proof.
  intros g a n. induction n as [|n IH]; intros j vs rt s L AL VS HA A.
  - exists s, vs. rewrite Nat.add_0_r. auto.
  - cbn [seq map concat app arun aok]. pose proof A as (R & P & VE & RT).
    rewrite (ptr_off s a) by (try (rewrite VE; exact VS); lia). cbn [bind].
    assert (AM : U 64 (a + (160 + 16 * Z.of_nat j)) mod 16 = 0).
    { unfold U. change (2 ^ 64) with 18446744073709551616. lia. }
    rewrite AM, Z.eqb_refl. cbn [run1]. rewrite (ptr_off s a) by (try (rewrite VE; exact VS); lia). cbn [bind load_rv].
    change (nbytes (facet_type V2I64)) with 16%nat. rewrite load_rd, rd_mem_addr, (rd_mem_ext 16 _ _ _ (xr_m _ _ (proj1 R))). cbn [z_x].
    set (z := rd_mem (y_m (z_x g)) (a + (160 + 16 * Z.of_nat j)) 16).
    assert (IZ : inr 128 z) by (exact (rd_mem_inr 16 (y_m (z_x g)) (a + (160 + 16 * Z.of_nat j)))).
    set (s1 := with_var s (upd_var (Dsl.s_var s) 2 (V (facet_type V2I64) z))).
    assert (E2 : ev c s1 v2 = Ok (V (facet_type V2I64) z)) by reflexivity.
    rewrite E2. cbn [bind set_cell]. rewrite HA. cbn [native_size]. rewrite trunc_small by exact IZ.
    destruct (IH (S j) (Dsl.s_var s1) rt (with_reg s1 (upd_reg (s_reg s1) (VEC (Z.of_nat j)) (Some z)))) as (s' & vs' & R1 & A1'); try assumption; try lia.
    + cbn [s1 with_var Dsl.s_var]. unfold upd_var. cbn [Nat.eqb]. rewrite VE. exact VS.
    + split; [|auto]. eapply zrel_ext; [apply (zrel_q s1 _ (Z.of_nat j) z (zrel_var _ _ _ R) IZ)|reflexivity|].
      intros k K. cbn [set_q z_q]. destruct (Z.eqb_spec k (Z.of_nat j)) as [->|NE].
      * replace ((0 <=? Z.of_nat j) && (Z.of_nat j <? Z.of_nat (S j))) with true by lia. unfold z. f_equal. lia.
      * destruct (Z.ltb_spec k (Z.of_nat j)), (Z.ltb_spec k (Z.of_nat (S j))); try lia; reflexivity.
    + exists s', vs'. replace (j + S n)%nat with (S j + n)%nat by lia. auto.
Qed.
End Fx.

Section Fx2.
Context `{FpuOps}.
Variable c : cenv.
Variable cfg : xcfg.
Variable kc : areg -> konst.
Notation PC i := (trunc 64 (i_start i + i_len i)).
Lemma fxsave_step : forall i m s g, fx_ctx c cfg kc i m s g -> i_mn i = S_FXSAVE -> let a := ea (z_x (sadv i g)) m in a mod 16 = 0 ->
  s_lifts c cfg kc i s (fx_save (sadv i g) 0 a).
Proof.
  intros i m s g C MN a AL. destruct (fadv_ctx c cfg kc i m s g C) as [ZC AT]. destruct C as [HA GB R (w & OP) W GM KC IP].
  unfold s_lifts. rewrite arun_pc. unfold lift_sse. rewrite MN. unfold LiftFxsave. rewrite OP. set (s0 := with_pc s (PcConst (PC i))) in *.
  pose proof (ev_sAddr c cfg GB kc (PC i) s0 (sadv i g) m _ _ AT ZC W GM) as EA. fold a in EA.
  cbn [arun aok bind run1]. rewrite EA. cbn [bind].
  set (s1 := with_var s0 (upd_var (Dsl.s_var s0) 1 (V TPtr a))).
  assert (E1 : ev c s1 v1 = Ok (V TPtr a)) by reflexivity.
  rewrite E1. cbn [bind]. rewrite AL, Z.eqb_refl. cbn [run1].
  assert (EZ : ev c s1 (EConst (TV 160 8) 0) = Ok (V (TV 160 8) 0)) by reflexivity.
  rewrite EZ. cbn [bind store_rv].
  change (nbytes (TV 160 8)) with 160%nat.
  destruct AT as (R0 & P0 & V0 & T0).
  destruct (save_loop c (PC i) (sadv i g) a 16 0 (Dsl.s_var s1) (s_ret s) (with_mem s1 (store_bytes (s_mem s1) a 160 0))) as (s' & R1 & (R2 & P2 & V2 & T2)).
  - lia.
  - exact AL.
  - reflexivity.
  - split; [|auto]. cbn [fx_area]. apply zrel_mem; [apply zrel_var; exact R0|]. intros x. rewrite store_wr_big by lia. unfold wr_mem.
    destruct (_ && _); [reflexivity|]. exact (xr_m _ _ (proj1 R0) x).
  - exists s'. split; [exact R1|]. split; [exact R2|]. split; [|exact T2]. rewrite P2. exact (PCV c kc (PC i) (sadv i g) ZC).
Qed.
Lemma fxrstor_step : forall i m s g, fx_ctx c cfg kc i m s g -> i_mn i = S_FXRSTOR -> let a := ea (z_x (sadv i g)) m in a mod 16 = 0 ->
  s_lifts c cfg kc i s (fx_load (sadv i g) a).
Proof.
  intros i m s g C MN a AL. destruct (fadv_ctx c cfg kc i m s g C) as [ZC AT]. destruct C as [HA GB R (w & OP) W GM KC IP].
  unfold s_lifts. rewrite arun_pc. unfold lift_sse. rewrite MN. unfold LiftFxrstor. rewrite OP. set (s0 := with_pc s (PcConst (PC i))) in *.
  pose proof (ev_sAddr c cfg GB kc (PC i) s0 (sadv i g) m _ _ AT ZC W GM) as EA. fold a in EA.
  cbn [arun aok bind run1]. rewrite EA. cbn [bind].
  set (s1 := with_var s0 (upd_var (Dsl.s_var s0) 1 (V TPtr a))).
  destruct AT as (R0 & P0 & V0 & T0).
  destruct (load_loop c (PC i) (sadv i g) a 16 0 (Dsl.s_var s1) (s_ret s) s1) as (s' & vs' & R1 & (R2 & P2 & V2 & T2)).
  - lia.
  - exact AL.
  - reflexivity.
  - exact HA.
  - split; [|auto]. eapply zrel_ext; [apply zrel_var; exact R0|reflexivity|]. intros k K. cbn [z_q]. change (Z.of_nat 0) with 0.
    replace ((0 <=? k) && (k <? 0)) with false by lia. reflexivity.
  - exists s'. split; [exact R1|]. split; [exact R2|]. split; [|exact T2]. rewrite P2. exact (PCV c kc (PC i) (sadv i g) ZC).
Qed.
(** Stores of a constant control word. *)
Lemma ctl_step : forall i m s g w v, fx_ctx c cfg kc i m s g -> 
  lift_sse c cfg kc i = gstore c cfg kc (i_op0 i) (TInt w) (cI w v) -> w = 16 \/ w = 32 -> inr w v ->
  s_lifts c cfg kc i s (set_x (sadv i g) (set_m (z_x (sadv i g)) (wr_mem (y_m (z_x g)) (ea (z_x (sadv i g)) m) (Z.to_nat (w / 8)) v))).
Proof.
  intros i m s g w v C E W I. destruct (fadv_ctx c cfg kc i m s g C) as [ZC AT]. destruct C as [HA GB R (w' & OP) WF GM KC IP].
  unfold s_lifts. rewrite arun_pc, E, OP. unfold gstore. cbn [aset].
  destruct (Zt_stm c cfg GB kc (PC i) (sadv i g) (s_var s) (s_ret s) w m (TInt w) (cI w v) 1 v v (ea (z_x (sadv i g)) m)) with (s := with_pc s (PcConst (PC i))) as (s' & R1 & D1 & D2 & D3); try assumption; try lia; try reflexivity.
  - intros s0 _. unfold ev, cI. cbn [eval leaf_val]. rewrite trunc_small by exact I. reflexivity.
  - symmetry. apply trunc_small. exact I.
  - exists s'. auto.
Qed.
End Fx2.
