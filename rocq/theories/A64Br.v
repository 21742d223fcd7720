(** AArch64 compare instructions, branches, calls, returns and supervisor calls. *)

From Coq Require Import ZArith Lia ZifyBool List Bool.
From Verif Require Import Bits IR Facet Dsl Rv64Spec Rv64Sim Rv64Arith X86Spec X86Arith A64 A64Spec A64Arith A64Sim A64Dp.
Import ListNotations.
Open Scope Z_scope.
Ltac Zify.zify_post_hook ::= Z.div_mod_to_equations.

Definition wf_cmp (i : ainst) : bool :=
  wf_regs i &&
  match a_op i with
  | A_TST_IMM | A_CMN_IMM | A_CMP_IMM => a_flags i && is_rzr (a_rd i)
  | A_TST_SHIFTED | A_CMN_SHIFTED | A_CMP_SHIFTED => a_flags i && is_rzr (a_rd i) && amt_ok i
  | A_CMN_EXT | A_CMP_EXT => a_flags i && is_rzr (a_rd i) && ext_ok i && ext_fits i
  | A_CCMN_REG | A_CCMP_REG | A_CCMN_IMM | A_CCMP_IMM => cond_ok i
  | _ => true
  end.
Definition wf_br (i : ainst) : bool :=
  wf_regs i &&
  match a_op i with
  | A_BCOND => cond_ok i
  | A_TBZ | A_TBNZ => (0 <=? a_bit i) && (a_bit i <? bits (a_w32 i))
  | _ => true
  end.

(** What follows the state change of a call, return or supervisor call. *)
Definition ktail (cfg : acfg) (i : ainst) : list stm :=
  match a_op i with
  | A_BL | A_BLR => match al_call cfg with Some f => [SCall f; SPcCallret (a_end i)] | None => [] end
  | A_RET => match al_call cfg with Some _ => [SRet] | None => [] end
  | A_SVC => match al_syscall cfg with Some f => [SCall f] | None => [] end
  | _ => []
  end.

Section Br.
Context `{FpuOps}.
Variable c : cenv.
Hypothesis HA : c_arch c = AArch64.
Variable cfg : acfg.
Notation kv := (kv c).
Notation lifts := (lifts c cfg).
Notation liftsp := (liftsp c cfg).

Variable i : ainst.
Variable g : kst.
Hypothesis PC : k_pc g = addr_pc_base c (a_start i).
Let w := bits (a_w32 i).
Let p := PcConst (a_start i).
Let n := rdx g (a_rn i) w.
Let m := rdx g (a_rm i) w.

(** Compares that are additions, subtractions and conjunctions into the zero register. *)
Lemma cmp_bin : forall op rhs y f, wf_regs i = true -> a_flags i = true -> a_rd i = RZR ->
  lift_op cfg i = go (LiftBinOp cfg i op (Some rhs) false) -> kv g p vs0 rhs w y -> inr w y ->
  match op with
  | Add => f = snd (awc w n y false)
  | Sub => f = snd (awc w n (knot w y) true)
  | And => f = nzcv (Z.testbit (Z.land n y) (w - 1)) (Z.land n y =? 0) false false
  | _ => False
  end -> lifts i g (wrpc (wrf g f) (k_pc g + 4)).
Proof.
  intros op rhs y f WR AF RZ LO EY Y Q.
  assert (KE : forall r, kput i g r (Some f) = wrpc (wrf g f) (k_pc g + 4)) by (intro; unfold kput; rewrite RZ; reflexivity).
  destruct (bin_flags cfg i op rhs false) as (l & Hl).
  { destruct op; try contradiction; auto. }
  rewrite Hl in LO. cbn [go] in LO.
  assert (KF : forall r fo, (r, fo) = (match op with Add => fst (awc w n y false) | Sub => fst (awc w n (knot w y) true) | _ => Z.land n y end, Some f) ->
    lifts i g (kput i g r fo)).
  { intros r fo RF. apply (bin_go c cfg i g PC WR op rhs false l y r fo Hl LO EY Y y eq_refl). rewrite AF.
    destruct op; try contradiction; subst f; exact RF. }
  pose proof (KF _ _ eq_refl) as L. rewrite KE in L. exact L.
Qed.

Lemma K_flag_sel : forall g0 vs rt f cond b0 l Q, vs 2%nat = Some (V (TInt 1) (b2z cond)) -> k_f g0 f <> None ->
  K c (setf g0 f (if cond then fl g0 f else b0)) p vs rt l Q ->
  K c g0 p vs rt (SSet (kcell f) (eSel (vX 2) (GetFlag (kcell f)) (cI 1 (b2z b0))) :: l) Q.
Proof.
  intros g0 vs rt f cond b0 l Q V2 N T. eapply K_setflag; [|exact T].
  eapply kv_eq; [|eapply kv_sel; [apply kv_var; exact V2|apply kv_flag; exact N|apply kv_c]].
  - destruct cond; reflexivity.
  - apply inr_b2z. lia.
Qed.
Lemma ccmp_go : forall rhs (ccmn : bool) y, wf_regs i = true -> cond_ok i = true -> (forall f, In f (cond_flags (a_cond i)) -> k_f g f <> None) ->
  lift_op cfg i = go (LiftCCmp cfg i rhs ccmn) -> (forall vs, kv g p vs rhs w y) -> inr w y ->
  lifts i g (wrpc (wrf g (if cond_holds (a_cond i) g then (if ccmn then snd (awc w n y false) else snd (awc w n (knot w y) true))
    else nzcv (Z.testbit (a_nzcv i) 3) (Z.testbit (a_nzcv i) 2) (Z.testbit (a_nzcv i) 1) (Z.testbit (a_nzcv i) 0))) (k_pc g + 4)).
Proof.
  intros rhs ccmn y WR CO FK LO EY Y. pose proof (bits_pos (a_w32 i)) as WW. fold w in WW.
  assert (ON : okx (a_rn i) = true) by (apply (ON i WR)).
  assert (NI : inr w n) by (apply rdx_inr; lia).
  unfold cond_ok in CO. unfold LiftCCmp in LO.
  destruct (IsTrue (a_cond i)) as [k|] eqn:IT; [|destruct (kv_IsTrue c g p vs0 (a_cond i) ltac:(lia) FK) as (k & K1 & _); congruence].
  assert (VK : forall vs, kv g p vs k 1 (b2z (cond_holds (a_cond i) g))).
  { intro vs. destruct (kv_IsTrue c g p vs (a_cond i) ltac:(lia) FK) as (k' & K1 & K2). rewrite IT in K1. injection K1 as <-. exact K2. }
  set (cond := cond_holds (a_cond i) g) in *.
  eapply lifts_go; [exact LO|]. intro rt. rewrite <- !app_assoc. cbn [app].
  eapply K_let; [apply kv_vals, kv_gp; exact ON|]. eapply K_let; [apply kv_vals, EY|]. eapply K_let; [apply kv_vals, VK|].
  set (r := trunc w (if ccmn then n + y else n - y)).
  eapply K_let with (v := V (TInt w) r).
  { apply kv_vals. eapply kv_bin; [apply kv_var; reflexivity|apply kv_var; reflexivity|]. unfold r. destruct ccmn; reflexivity. }
  match goal with |- K c _ ?p0 ?vs1 _ _ _ =>
    assert (V3 : forall g', kv g' p0 vs1 (vX 3) w r) by (intro; apply kv_var; reflexivity);
    assert (V0 : forall g', kv g' p0 vs1 (vX 0) w n) by (intro; apply kv_var; reflexivity);
    assert (V1 : forall g', kv g' p0 vs1 (vX 1) w y) by (intro; apply kv_var; reflexivity);
    assert (V2 : vs1 2%nat = Some (V (TInt 1) (b2z cond))) by reflexivity;
    set (vs := vs1) in * end.
  set (F := if ccmn then snd (awc w n y false) else snd (awc w n (knot w y) true)).
  assert (FD : forall f, exists b, F f = Some b) by (intro f; unfold F; destruct ccmn; destruct f; eexists; reflexivity).
  assert (REST : K c (wrf g F) p vs rt ([SSet SF (eSel (vX 2) (GetFlag SF) (cI 1 (b2z (Z.testbit (a_nzcv i) 3)))); SSet ZF (eSel (vX 2) (GetFlag ZF) (cI 1 (b2z (Z.testbit (a_nzcv i) 2))));
      SSet CF (eSel (vX 2) (GetFlag CF) (cI 1 (b2z (Z.testbit (a_nzcv i) 1)))); SSet OF (eSel (vX 2) (GetFlag OF) (cI 1 (b2z (Z.testbit (a_nzcv i) 0)))); SPcConst (a_end i)])
    (kdone c (wrpc (wrf g (if cond then F else nzcv (Z.testbit (a_nzcv i) 3) (Z.testbit (a_nzcv i) 2) (Z.testbit (a_nzcv i) 1) (Z.testbit (a_nzcv i) 0))) (k_pc g + 4)) (PcConst (a_end i)) rt)).
  { apply (K_flag_sel _ _ _ fN cond _ _ _ V2). { cbn [wrf k_f]. destruct (FD fN) as [b ->]. discriminate. }
    apply (K_flag_sel _ _ _ fZ cond _ _ _ V2). { cbn [setf wrf k_f kflag_eqb]. destruct (FD fZ) as [b ->]. discriminate. }
    apply (K_flag_sel _ _ _ fC cond _ _ _ V2). { cbn [setf wrf k_f kflag_eqb]. destruct (FD fC) as [b ->]. discriminate. }
    apply (K_flag_sel _ _ _ fV cond _ _ _ V2). { cbn [setf wrf k_f kflag_eqb]. destruct (FD fV) as [b ->]. discriminate. }
    match goal with |- K c ?g1 _ _ _ _ (kdone c (wrpc ?g2 _) _ _) => change (k_pc g) with (k_pc g2) end. apply K_end; [exact PC|].
    split; [reflexivity|]. split; [reflexivity|]. split; [|auto].
    intros f b. cbn [setf wrf k_f]. unfold fl. cbn [wrf k_f setf]. destruct f; cbn [kflag_eqb]; destruct cond; auto;
    intro Q; rewrite Q; reflexivity. }
  fold F. destruct ccmn.
  - eapply (K_flag_add c); [exact WW|exact NI|exact Y|exact V3|exact V0|exact V1|exact REST].
  - eapply (K_flag_sub c); [exact WW|exact NI|exact Y|exact V3|exact V0|exact V1|exact REST].
Qed.

Theorem cmp_step : forall f, wf_cmp i = true -> flags_known i g -> kcmp i g = Some f -> lifts i g (wrpc (wrf g f) (k_pc g + 4)).
Proof.
  intros f WF FK S. unfold wf_cmp in WF. apply andb_prop in WF. destruct WF as [WR WF].
  pose proof (bits_pos (a_w32 i)) as WW. fold w in WW.
  assert (MI : inr w m) by (apply rdx_inr; lia).
  assert (RZ : forall r, is_rzr r = true -> r = RZR) by (intros []; (reflexivity || discriminate)).
  unfold flags_known, reads in FK. unfold kcmp in S. cbv zeta in S. fold (bits (a_w32 i)) in S. fold w in S. fold n m in S.
  destruct (a_op i) eqn:E; try discriminate S; cbv beta iota zeta in S; injection S as <-.
  - apply andb_prop in WF. destruct WF as [AF R0]. destruct (imm_ok c i g) as (e & Re & Ve & Ie).
    eapply (cmp_bin And e); [exact WR|exact AF|apply RZ; exact R0|unfold lift_op; rewrite E; rewrite Re; reflexivity|exact Ve|exact Ie|reflexivity].
  - apply andb_prop in WF. destruct WF as [AF R0]. destruct (imm_ok c i g) as (e & Re & Ve & Ie).
    eapply (cmp_bin Add e); [exact WR|exact AF|apply RZ; exact R0|unfold lift_op; rewrite E; rewrite Re; reflexivity|exact Ve|exact Ie|reflexivity].
  - apply andb_prop in WF. destruct WF as [AF R0]. destruct (imm_ok c i g) as (e & Re & Ve & Ie).
    eapply (cmp_bin Sub e); [exact WR|exact AF|apply RZ; exact R0|unfold lift_op; rewrite E; rewrite Re; reflexivity|exact Ve|exact Ie|reflexivity].
  - apply andb_prop in WF. destruct WF as [WF AO]. apply andb_prop in WF. destruct WF as [AF R0]. destruct (sh_ok c i g WR AO) as (e & Re & Ve & Ie).
    eapply (cmp_bin And e); [exact WR|exact AF|apply RZ; exact R0|unfold lift_op; rewrite E; rewrite Re; reflexivity|exact Ve|exact Ie|reflexivity].
  - apply andb_prop in WF. destruct WF as [WF AO]. apply andb_prop in WF. destruct WF as [AF R0]. destruct (sh_ok c i g WR AO) as (e & Re & Ve & Ie).
    eapply (cmp_bin Add e); [exact WR|exact AF|apply RZ; exact R0|unfold lift_op; rewrite E; rewrite Re; reflexivity|exact Ve|exact Ie|reflexivity].
  - apply andb_prop in WF. destruct WF as [WF AO]. apply andb_prop in WF. destruct WF as [AF R0]. destruct (sh_ok c i g WR AO) as (e & Re & Ve & Ie).
    eapply (cmp_bin Sub e); [exact WR|exact AF|apply RZ; exact R0|unfold lift_op; rewrite E; rewrite Re; reflexivity|exact Ve|exact Ie|reflexivity].
  - apply andb_prop in WF. destruct WF as [WF EF]. apply andb_prop in WF. destruct WF as [WF EO]. apply andb_prop in WF. destruct WF as [AF R0].
    destruct (ex_ok c i g WR EO EF) as (e & Re & Ve & Ie).
    eapply (cmp_bin Add e); [exact WR|exact AF|apply RZ; exact R0|unfold lift_op; rewrite E; rewrite Re; reflexivity|exact Ve|exact Ie|reflexivity].
  - apply andb_prop in WF. destruct WF as [WF EF]. apply andb_prop in WF. destruct WF as [WF EO]. apply andb_prop in WF. destruct WF as [AF R0].
    destruct (ex_ok c i g WR EO EF) as (e & Re & Ve & Ie).
    eapply (cmp_bin Sub e); [exact WR|exact AF|apply RZ; exact R0|unfold lift_op; rewrite E; rewrite Re; reflexivity|exact Ve|exact Ie|reflexivity].
  - apply (ccmp_go (GetGp (a_rm i) (a_w32 i)) true m WR WF FK); [unfold lift_op; rewrite E; reflexivity|intro; apply kv_gp, (OM i WR)|exact MI].
  - apply (ccmp_go (GetGp (a_rm i) (a_w32 i)) false m WR WF FK); [unfold lift_op; rewrite E; reflexivity|intro; apply kv_gp, (OM i WR)|exact MI].
  - apply (ccmp_go (cI w (a_imm i)) true (U w (a_imm i)) WR WF FK); [unfold lift_op; rewrite E; reflexivity|intro; apply kv_cI|apply trunc_range; lia].
  - apply (ccmp_go (cI w (a_imm i)) false (U w (a_imm i)) WR WF FK); [unfold lift_op; rewrite E; reflexivity|intro; apply kv_cI|apply trunc_range; lia].
Qed.

(** ** Branches *)
(** How the PC is represented after a branch that is not a call or return. *)
Definition br_pc (t : Z) : pcreg :=
  let tgt := trunc 64 (a_start i + a_off i) in
  let if_ (b : bool) := PcCond (V (TInt 1) (b2z b)) tgt (a_end i) in
  let v := rdx g (a_rd i) w in
  match a_op i with
  | A_B => PcConst tgt
  | A_BR => PcVal (V (TInt 64) (rdx g (a_rn i) 64))
  | A_BCOND => if_ (cond_holds (a_cond i) g)
  | A_CBZ => if_ (v =? 0)
  | A_CBNZ => if_ (negb (v =? 0))
  | A_TBZ => if_ (negb (Z.testbit v (a_bit i)))
  | _ => if_ (Z.testbit v (a_bit i))
  end.
Lemma K_pcval : forall g0 p0 vs rt e v l Q, kvals c g0 p0 vs e v -> K c g0 (PcVal v) vs rt l Q -> K c g0 p0 vs rt (SPcVal e :: l) Q.
Proof.
  intros g0 p0 vs rt e v l Q E T s A. cbn [run run1]. rewrite (E s rt A). cbn [bind]. apply T. destruct A as (R & P & VS & RT).
  split; [apply krel_pc; assumption|auto].
Qed.
Lemma K_pccond : forall g0 p0 vs rt e v a1 a2 l Q, kvals c g0 p0 vs e v -> K c g0 (PcCond v a1 a2) vs rt l Q -> K c g0 p0 vs rt (SPcCond e a1 a2 :: l) Q.
Proof.
  intros g0 p0 vs rt e v a1 a2 l Q E T s A. cbn [run run1]. rewrite (E s rt A). cbn [bind]. apply T. destruct A as (R & P & VS & RT).
  split; [apply krel_pc; assumption|auto].
Qed.
Lemma kle_wrpc : forall g0 a, kle g0 (wrpc g0 a).
Proof. intros. repeat split; auto. Qed.
Lemma cond_done : forall e b, (forall vs, kv g p vs e 1 (b2z b)) ->
  lift_op cfg i = Some (Some (false, [SPcCond e (trunc 64 (a_start i + a_off i)) (a_end i)])) ->
  liftsp i g (wrpc g (if b then k_pc g + a_off i else k_pc g + 4)) (PcCond (V (TInt 1) (b2z b)) (trunc 64 (a_start i + a_off i)) (a_end i)).
Proof.
  intros e b E LO. eapply lifts_jump; [exact LO|]. intro rt. eapply K_pccond; [apply kv_vals, E|]. apply K_done; [apply kle_wrpc|].
  cbn [pc_value wrpc k_pc]. rewrite !Z.add_0_r. unfold a_end. rewrite !addr_pc_base_trunc, !addr_pc_base_add, PC. change U with trunc.
  destruct b; reflexivity.
Qed.
Lemma bit_mask : forall v k, 0 <= k -> (Z.land v (2^k) =? 0) = negb (Z.testbit v k).
Proof.
  intros v k K0. destruct (Z.testbit v k) eqn:T; cbn [negb].
  - apply Z.eqb_neq. intro Q. assert (Z.testbit (Z.land v (2^k)) k = false) by (rewrite Q; apply Z.bits_0).
    rewrite Z.land_spec, T, testbit_pow2, Z.eqb_refl in H0 by lia. discriminate.
  - apply Z.eqb_eq. apply Z.bits_inj'. intros j J. rewrite Z.land_spec, testbit_pow2, Z.bits_0 by lia.
    destruct (Z.eqb_spec k j) as [<-|]; [rewrite T; reflexivity|apply andb_false_r].
Qed.
Theorem br_step : forall t, wf_br i = true -> flags_known i g -> kbr i g = Some t -> liftsp i g (wrpc g t) (br_pc t).
Proof.
  intros t WF FK S. unfold wf_br in WF. apply andb_prop in WF. destruct WF as [WR WF].
  pose proof (bits_pos (a_w32 i)) as WW. fold w in WW.
  assert (OD : okx (a_rd i) = true) by (apply (OD i WR)). assert (ON : okx (a_rn i) = true) by (apply (ON i WR)).
  assert (VZ : forall k vs, kv g p vs (eCmp k (GetGp (a_rd i) (a_w32 i)) (cI w 0)) 1 (b2z (icmp_sem k w (rdx g (a_rd i) w) 0))).
  { intros k vs. apply kv_cmp; [apply kv_gp; exact OD|apply kv_c, inr0; lia]. }
  assert (VT : 0 <= a_bit i < w -> forall k vs, kv g p vs (eCmp k (eAnd (GetGp (a_rd i) (a_w32 i)) (cI w (2 ^ a_bit i))) (cI w 0)) 1
      (b2z (icmp_sem k w (Z.land (rdx g (a_rd i) w) (2^a_bit i)) 0))).
  { intros B k vs. apply kv_cmp; [apply kv_and; [apply kv_gp; exact OD|apply kv_c, pow2_inr; lia]|apply kv_c, inr0; lia]. }
  unfold flags_known, reads in FK. unfold kbr in S. cbv zeta in S. fold (bits (a_w32 i)) in S. fold w in S.
  unfold br_pc. destruct (a_op i) eqn:E; try discriminate S; cbv beta iota zeta in S; injection S as <-.
  - (* B.cond *) unfold cond_ok in WF.
    destruct (IsTrue (a_cond i)) as [k|] eqn:IT; [|destruct (kv_IsTrue c g p vs0 (a_cond i) ltac:(lia) FK) as (k & K1 & _); congruence].
    eapply cond_done; [|unfold lift_op; rewrite E, IT; reflexivity].
    intro vs. destruct (kv_IsTrue c g p vs (a_cond i) ltac:(lia) FK) as (k' & K1 & K2). rewrite IT in K1. injection K1 as <-. exact K2.
  - (* B *) eapply lifts_jump; [unfold lift_op; rewrite E; reflexivity|]. intro rt. apply K_pc, K_done; [apply kle_wrpc|].
    cbn [pc_value wrpc k_pc]. rewrite Z.add_0_r, addr_pc_base_trunc, addr_pc_base_add, PC. reflexivity.
  - (* BR *) eapply lifts_jump; [unfold lift_op; rewrite E; reflexivity|]. intro rt. eapply K_pcval; [apply kv_vals; exact (kv_gp c g p vs0 (a_rn i) false ON)|].
    apply K_done; [apply kle_wrpc|]. cbn [pc_value wrpc k_pc bits]. change (0 =? 0) with true. cbv iota. change U with trunc.
    rewrite (trunc_small 64 (rdx _ _ _)) by (apply rdx_inr; lia). reflexivity.
  - (* CBZ *) eapply (cond_done _ (_ =? 0)); [|unfold lift_op; rewrite E; reflexivity]. intro vs. exact (VZ EQ vs).
  - (* CBNZ *) eapply (cond_done _ (negb (_ =? 0))); [|unfold lift_op; rewrite E; reflexivity]. intro vs. exact (VZ NE vs).
  - (* TBZ *) fold w in WF. assert (B : 0 <= a_bit i < w) by lia.
    eapply cond_done; [|unfold lift_op; rewrite E; fold w; replace (a_bit i <? w) with true by lia; reflexivity].
    intro vs. rewrite <- bit_mask by lia. exact (VT B EQ vs).
  - (* TBNZ *) fold w in WF. assert (B : 0 <= a_bit i < w) by lia.
    eapply cond_done; [|unfold lift_op; rewrite E; fold w; replace (a_bit i <? w) with true by lia; reflexivity].
    intro vs. rewrite <- (negb_involutive (Z.testbit _ _)), <- bit_mask by lia. exact (VT B NE vs).
Qed.

(** ** Calls and returns *)
(** As [liftsp], with the remaining code [tl] not yet executed. *)
Definition liftst (g' : kst) (p' : pcreg) (tl : list stm) : Prop :=
  exists l, lift_a64 cfg i = Some (true, l ++ tl) /\
  forall s, krel s g -> exists s', run c s l = Ok s' /\ kdone c g' p' (s_ret s) s'.
Lemma lifts_tail : forall g' p' l tl, lift_op cfg i = Some (Some (false, l ++ tl)) ->
  (forall rt, K c g (PcConst (a_start i)) vs0 rt l (kdone c g' p' rt)) -> liftst g' p' tl.
Proof.
  intros g' p' l tl E T. unfold liftst, lift_a64. rewrite E. exists (SPcConst (a_start i) :: l). split; [reflexivity|]. intros s R.
  apply (K_pc c g (s_pc s) vs0 (s_ret s)); [apply T|]. split; [assumption|]. split; [reflexivity|]. split; [discriminate|reflexivity].
Qed.
Lemma K_undef1 : forall g0 p0 vs rt f l Q, K c (wrf g0 (fun x => if kflag_eqb x f then None else k_f g0 x)) p0 vs rt l Q ->
  K c g0 p0 vs rt (SSet (kcell f) (EUndef (TInt 1)) :: l) Q.
Proof.
  intros g0 p0 vs rt f l Q T s (R & P & VS & RT). cbn [run run1 ev eval bind]. apply T. split; [|auto].
  destruct R as [A B C D E F I J L M].
  split; cbn [wrf k_x k_sp k_f k_q k_tp k_m with_reg s_reg s_mem]; unfold upd_reg; auto.
  - intros n0 N0. destruct f; cbn [areg_eqb kcell]; apply A; assumption.
  - destruct f; exact C.
  - intros f' b' Q0. destruct f, f'; cbn [kflag_eqb kcell areg_eqb] in *; try discriminate Q0; apply (E _ _ Q0).
  - intros n0 N0. destruct f; cbn [areg_eqb kcell]; apply F; assumption.
  - destruct f; exact J.
Qed.
Definition gclob : kst := if al_clobber cfg then wrf g (fun _ => None) else g.
Lemma K_undef : forall p0 vs rt l Q, K c gclob p0 vs rt l Q -> K c g p0 vs rt (undef_flags cfg ++ l) Q.
Proof.
  intros p0 vs rt l Q T. unfold undef_flags, gclob in *. destruct (al_clobber cfg); [|exact T]. cbn [app].
  apply (K_undef1 _ _ _ _ fV), (K_undef1 _ _ _ _ fN), (K_undef1 _ _ _ _ fZ), (K_undef1 _ _ _ _ fC).
  eapply K_weaken; [|exact T]. repeat split; auto. discriminate.
Qed.
Lemma gclob_x : forall r w0, rdx gclob r w0 = rdx g r w0.
Proof. intros. unfold gclob. destruct (al_clobber cfg); reflexivity. Qed.

(** BL, and BLR and RET through any register; for BLR the register is read after
    x30 has been written. *)
Lemma call_go : forall tgt pv v g1, g1 = wrx gclob (RX 30) 64 (k_pc g + 4) ->
  (a_op i = A_BL \/ a_op i = A_BLR) ->
  (forall vs rt Q, K c g1 pv vs rt [] Q -> K c g1 p vs rt [tgt] Q) ->
  tgt = match a_op i with A_BLR => SPcVal (GetGp (a_rn i) false) | _ => SPcConst (trunc 64 (a_start i + a_off i)) end ->
  pc_value c pv 0 = Ok (V (TInt 64) (U 64 v)) ->
  liftst (wrpc g1 v) pv (ktail cfg i).
Proof.
  intros tgt pv v g1 G1 O T Et PV.
  eapply lifts_tail with (l := undef_flags cfg ++ [SSet (GP 30) (ELeaf (DPc 4)); tgt]).
  - unfold lift_op, ktail. subst tgt. destruct O as [O|O]; rewrite O; rewrite <- !app_assoc; reflexivity.
  - intro rt. apply K_undef. change [SSet (GP 30) (ELeaf (DPc 4)); tgt] with (SetGp (RX 30) (ELeaf (DPc 4)) ++ [tgt]).
    assert (PI : inr 64 (addr_pc_base c (a_start i + 4))) by apply addr_pc_base_inr.
    eapply K_setgp with (w := 64); [apply kv_pc|lia|exact PI|reflexivity|reflexivity| |].
    + instantiate (1 := k_pc g + 4). rewrite addr_pc_base_add, PC. reflexivity.
    + rewrite <- G1. apply T. apply K_done; [apply kle_wrpc|exact PV].
Qed.
Theorem call_step : forall g', okx (a_rn i) = true -> (a_op i = A_BLR -> a_rn i <> RX 30) -> kcall (al_clobber cfg) i g = Some g' ->
  liftst g' (match a_op i with A_BL => PcConst (trunc 64 (a_start i + a_off i)) | _ => PcVal (V (TInt 64) (rdx g (a_rn i) 64)) end) (ktail cfg i).
Proof.
  intros g' ON NX S. unfold kcall in S. fold gclob in S. destruct (a_op i) eqn:E; try discriminate S; injection S as <-.
  - (* BL *) eapply call_go; [reflexivity|left; exact E|intros vs rt Q T; apply K_pc; exact T|rewrite E; reflexivity|].
    cbn [pc_value]. rewrite Z.add_0_r, addr_pc_base_trunc, addr_pc_base_add, PC. reflexivity.
  - (* BLR *) specialize (NX eq_refl). eapply call_go; [reflexivity|right; exact E| |rewrite E; reflexivity|].
    + intros vs rt Q T. eapply K_pcval; [|exact T]. apply kv_vals.
      eapply kv_eq; [|exact (kv_gp c _ p vs (a_rn i) false ON)]. cbn [bits].
      unfold rdx, wrx. destruct (a_rn i) as [k| |]; cbn [k_x k_sp].
      * destruct (Z.eqb_spec k 30) as [->|]; [contradiction|]. exact (gclob_x (RX k) 64).
      * reflexivity.
      * unfold gclob. destruct (al_clobber cfg); reflexivity.
    + cbn [pc_value]. change (0 =? 0) with true. cbv iota. change U with trunc. rewrite (trunc_small 64 (rdx _ _ _)) by (apply rdx_inr; lia). reflexivity.
  - (* RET *) eapply lifts_tail with (l := undef_flags cfg ++ [SPcVal (GetGp (a_rn i) false)]).
    + unfold lift_op, ktail. rewrite E, <- !app_assoc. reflexivity.
    + intro rt. apply K_undef. eapply K_pcval; [apply kv_vals; exact (kv_gp c gclob p vs0 (a_rn i) false ON)|].
      cbn [bits]. rewrite gclob_x. apply K_done; [apply kle_wrpc|].
      cbn [pc_value wrpc k_pc]. change (0 =? 0) with true. cbv iota. change U with trunc. rewrite (trunc_small 64 (rdx _ _ _)) by (apply rdx_inr; lia). reflexivity.
Qed.
(** BLR x30 goes to the instruction behind it. *)
Lemma blr_x30 : a_op i = A_BLR -> a_rn i = RX 30 ->
  liftst (wrpc (wrx gclob (RX 30) 64 (k_pc g + 4)) (k_pc g + 4)) (PcVal (V (TInt 64) (U 64 (k_pc g + 4)))) (ktail cfg i).
Proof.
  intros E R30. eapply call_go; [reflexivity|right; exact E| |rewrite E; reflexivity|].
  - intros vs rt Q T. eapply K_pcval; [|exact T]. apply kv_vals. rewrite R30.
    eapply kv_eq; [|exact (kv_gp c _ p vs (RX 30) false eq_refl)]. cbn [bits]. unfold rdx, wrx. cbn [k_x]. change (30 =? 30) with true. cbv iota.
    change U with trunc. apply trunc_trunc. lia.
  - reflexivity.
Qed.
(** SVC: the PC handed to the syscall function is the absolute lift-time address. *)
Lemma svc_step : a_op i = A_SVC -> liftst (wrpc g (a_end i)) (PcVal (V (TInt 64) (a_end i))) (ktail cfg i).
Proof.
  intro E. assert (EI : inr 64 (a_end i)) by (apply trunc_range; lia).
  eapply lifts_tail with (l := [SPcVal (cI 64 (a_end i))]); [unfold lift_op, ktail; rewrite E; reflexivity|].
  intro rt. eapply K_pcval; [apply kv_vals, kv_c; exact EI|]. apply K_done; [apply kle_wrpc|].
  cbn [pc_value wrpc k_pc]. change (0 =? 0) with true. cbv iota. change U with trunc. rewrite (trunc_small 64 (a_end i) EI). reflexivity.
Qed.
End Br.
