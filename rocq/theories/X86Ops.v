(** Operand access, stack, conditions and the flags word of the x86-64 lifter as
    triples over the guest state. *)

From Coq Require Import ZArith Lia ZifyBool List Bool.
From Verif Require Import Bits IR Facet Dsl Rv64 Rv64Spec Rv64Sim Rv64Arith X86 X86Spec X86Arith X86Sim.
Import ListNotations.
Open Scope Z_scope.
Ltac Zify.zify_post_hook ::= Z.div_mod_to_equations.

(** Conjuncts of a boolean conjunction. *)
Ltac bsp := repeat match goal with H : _ && _ = true |- _ => apply andb_prop in H; destruct H end; assumption || (repeat split; assumption) || lia.

Lemma rd_mem_inr : forall n m a, inr (8 * Z.of_nat n) (rd_mem m a n).
Proof.
  induction n; intros m a; cbn [rd_mem].
  - split; [lia|reflexivity].
  - specialize (IHn m a). unfold inr in *. replace (8 * Z.of_nat (S n)) with (8 + 8 * Z.of_nat n) by lia.
    rewrite Z.pow_add_r by lia. change (2^8) with 256. rewrite (Z.pow_mul_r 2 8) in * by lia. change (2^8) with 256 in *.
    pose proof (Z.mod_pos_bound (m (U 64 (a + Z.of_nat n))) 256). set (k := 256 ^ Z.of_nat n) in *. set (y := m (U 64 (a + Z.of_nat n)) mod 256) in *. clearbody y k. nia.
Qed.
Lemma reg_merge_trunc : forall w o v, okw w = true -> reg_merge w o (trunc w v) = reg_merge w o v.
Proof.
  intros w o v O. unfold reg_merge. okw_split O; cbn [Z.eqb Pos.eqb]; change U with trunc; try (rewrite trunc_trunc by lia; reflexivity);
  unfold trunc; rewrite Z.mod_mod by lia; reflexivity.
Qed.
Lemma wr_reg_trunc : forall g w r v, okw w = true -> wr_reg g w r (trunc w v) = wr_reg g w r v.
Proof. intros g w r v O. unfold wr_reg. rewrite reg_merge_trunc by assumption. reflexivity. Qed.
Lemma wr_hi_trunc : forall g r v, wr_hi g r (trunc 8 v) = wr_hi g r v.
Proof. intros g r v. unfold wr_hi, trunc. change (2^8) with 256. rewrite Z.mod_mod by lia. reflexivity. Qed.
Lemma rd_loc_inr : forall g l, (forall n, 0 <= n < 16 -> inr 64 (y_r g n)) ->
  match l with LReg w r => okw w = true | LMem w a => okw w = true | _ => True end ->
  inr (match l with LReg w _ | LMem w _ => w | LHi _ => 8 | LBad => 0 end) (rd_loc g l).
Proof.
  intros g l R O. destruct l as [w r|r|w a|]; cbn [rd_loc].
  - apply trunc_range. pose proof (okw_pos w O). lia.
  - unfold inr. change (2^8) with 256. apply Z.mod_pos_bound. lia.
  - rewrite <- (okw_bytes w O) at 1. apply rd_mem_inr.
  - split; [lia|reflexivity].
Qed.
Lemma rd_op_inr : forall g o, wf_op o = true -> op_val o = true -> inr (op_bits o) (rd_op g o).
Proof.
  intros g o W V. destruct o as [|w hi r|w v|d|w m]; try discriminate; cbn [rd_op op_bits loc_of wf_op] in *.
  - destruct hi; cbn [rd_loc].
    + assert (w = 8) by lia. subst. unfold inr. change (2^8) with 256. apply Z.mod_pos_bound. lia.
    + apply trunc_range. assert (O : okw w = true) by bsp. pose proof (okw_pos w O). lia.
  - apply trunc_range. pose proof (okw_pos w W). lia.
  - assert (O : okw w = true) by bsp. cbn [rd_loc]. rewrite <- (okw_bytes w O) at 1. apply rd_mem_inr.
Qed.
Lemma op_bits_ok : forall o, wf_op o = true -> op_val o = true -> okw (op_bits o) = true.
Proof. intros o W V. destruct o as [|w hi r|w v|d|w m]; try discriminate; cbn [op_bits wf_op] in *; try bsp. destruct hi; unfold okw in *; bsp. Qed.
Lemma op_rm_val : forall o, op_rm o = true -> op_val o = true.
Proof. destruct o; auto. Qed.
Lemma op_isreg_rm : forall o, op_isreg o = true -> op_rm o = true.
Proof. destruct o; auto. Qed.
Lemma op_ismem_rm : forall o, op_ismem o = true -> op_rm o = true.
Proof. destruct o; auto. Qed.
Lemma wr_op_ip : forall g o v, y_ip (wr_op g o v) = y_ip g.
Proof. intros g o v. destruct o as [|w hi r| | |]; try reflexivity. destruct hi; reflexivity. Qed.
Lemma wr_loc_ip : forall g l v, y_ip (wr_loc g l v) = y_ip g.
Proof. intros g l v. destruct l; reflexivity. Qed.
Lemma wr_loc_f : forall g l v, y_f (wr_loc g l v) = y_f g.
Proof. intros g l v. destruct l; reflexivity. Qed.

Section Ops.
Context `{FpuOps}.
Variable c : cenv.
Variable cfg : xcfg.
Hypothesis HA : c_arch c = X86_64.
Hypothesis GB : gbase_ok c.
Notation G := (G c).
Notation vals := (vals c).

Lemma vals_mono : forall g g' p vs e v, gle g g' -> vals g' p vs e v -> vals g p vs e v.
Proof. intros g g' p vs e v L E s rt (R & P & VS & RT). apply (E s rt). split; [eapply xrel_gle; eassumption|auto]. Qed.
Lemma v_OpAddr : forall kc g a vs m sg seg, y_ip g = addr_pc_base c a -> wf_mem m = true -> xkc_sound kc g ->
  seg = (if sg =? 7 then m_seg m else sg) ->
  good_mem cfg seg m = true ->
  vals g (PcConst a) vs (OpAddrK c cfg kc m sg) (V TPtr (U 64 (ea_off g m + seg_base g seg))).
Proof.
  intros kc g a vs m sg seg IP W K -> GM s rt (R & P & _). apply (ev_OpAddr c cfg kc s g a sg m R P IP W K GB GM).
Qed.
Lemma G_OpLoad : forall kc g a vs rt x o l Q, y_ip g = addr_pc_base c a -> wf_op o = true -> op_val o = true ->
  good_op cfg o = true -> xkc_sound kc g ->
  G g (PcConst a) (upd_var vs x (V (TInt (op_bits o)) (rd_op g o))) rt l Q ->
  G g (PcConst a) vs rt (OpLoad c cfg kc x o FI ++ l) Q.
Proof.
  intros kc g a vs rt x o l Q IP W V GO KC K. unfold OpLoad, OpLoadSeg. cbn [facet_Resolve].
  destruct o as [|w hi r|w v|d|w m]; try discriminate; cbn [op_bits rd_op loc_of wf_op] in *; cbn [app].
  - eapply G_let; [|exact K]. destruct hi.
    + assert (w = 8 /\ 4 <= r <= 7) as [-> N] by lia. cbn [facet_eqb facet_In Z.eqb Pos.eqb andb MapReg rd_loc].
      replace (facet_eqb (facet_In 8) I8) with true by reflexivity. apply v_gphi. lia.
    + rewrite andb_false_r. cbn [MapReg rd_loc]. assert (okw w = true /\ okr r = true) as [O N] by (split; bsp). apply okr_range in N. apply v_gp; assumption.
  - eapply G_let; [|exact K]. apply v_cI.
  - assert (O : okw w = true) by bsp. rewrite facet_In_type by assumption.
    eapply G_load; [|exact K]. unfold OpAddr. eapply v_OpAddr; try eassumption; [bsp|reflexivity].
Qed.
Lemma v_inr_or : forall a b w, 0 <= w -> inr w a -> inr w b -> inr w (Z.lor a b).
Proof. intros. apply lor_inr; assumption. Qed.
Lemma G_wrhi : forall g p vs rt r e z l Q, vals g p vs e (V (TInt 8) z) -> inr 8 z -> 0 <= r < 16 ->
  G (wr_hi g r z) p vs rt l Q ->
  G g p vs rt (SSet (GP r) (eOr (eShl (eZExt 64 e) (cI 64 8)) (eAnd (rG (GP r) I64) (cI 64 0xffffffffffff00ff))) :: l) Q.
Proof.
  intros g p vs rt r e z l Q E I N K s A.
  refine (G_set c HA g p vs rt r _ (TInt 64) _ l Q _ N _ s A).
  - eapply v_bin; [| |reflexivity].
    + eapply v_bin; [eapply v_zext; [exact E|lia]|apply v_cI|]. cbn [ibin]. reflexivity.
    + eapply v_bin; [apply v_gp64; assumption|apply v_cI|reflexivity].
  - pose proof (xr_rr _ _ (proj1 A) r N) as RR. change (trunc 64 8) with 8. change (trunc 64 0xffffffffffff00ff) with 0xffffffffffff00ff.
    rewrite hi_merge by assumption. rewrite trunc_small by (apply hi_inr; assumption).
    unfold wr_hi in K. rewrite (Z.mod_small z 256) in K by exact I. exact K.
Qed.
Lemma G_StoreGp : forall g p vs rt r w e v l Q, vals g p vs e (V (TInt w) (trunc w v)) -> okw w = true -> 0 <= r < 16 ->
  G (wr_reg g w r v) p vs rt l Q -> G g p vs rt (StoreGpX (GP r) w e ++ l) Q.
Proof.
  intros g p vs rt r w e v l Q E O N K. rewrite <- wr_reg_trunc in K by assumption. 
  unfold StoreGpX, StoreGpFacet. pose proof O as O'. okw_split O'; cbn [app];
    replace (facet_In 8) with I8 by reflexivity || replace (facet_In 16) with I16 by reflexivity ||
    replace (facet_In 32) with I32 by reflexivity || replace (facet_In 64) with I64 by reflexivity; cbn [app].
  - eapply G_merge; try eassumption; [auto|apply trunc_range; lia].
  - eapply G_merge; try eassumption; [auto|apply trunc_range; lia].
  - eapply G_wreg32; try eassumption; apply trunc_range; lia.
  - eapply G_wreg64; try eassumption. left; eassumption.
Qed.
Lemma G_OpStore : forall kc g a vs rt o w e v l Q, y_ip g = addr_pc_base c a -> wf_op o = true -> op_rm o = true -> op_bits o = w ->
  good_op cfg o = true -> xkc_sound kc g ->
  vals g (PcConst a) vs e (V (TInt w) (trunc w v)) ->
  G (wr_op g o v) (PcConst a) vs rt l Q ->
  G g (PcConst a) vs rt (OpStoreGpK c cfg kc o w e ++ l) Q.
Proof.
  intros kc g a vs rt o w e v l Q IP W V B GO KC E K. unfold OpStoreGpK.
  destruct o as [|w' hi r|w' v'|d|w' m]; try discriminate; cbn [op_bits wf_op] in *; cbn [app]; subst w'.
  - rewrite Z.eqb_refl. unfold wr_op, loc_of in K. destruct hi.
    + assert (w = 8 /\ 4 <= r <= 7) as [-> N] by lia. cbn [andb]. replace (facet_eqb (facet_In 8) I8) with true by reflexivity.
      cbn [andb StoreGpFacet MapReg app wr_loc] in *. rewrite <- wr_hi_trunc in K.
      eapply G_wrhi; try eassumption; [apply trunc_range; lia|lia].
    + rewrite andb_false_r. cbn [MapReg wr_loc] in *. assert (okw w = true /\ okr r = true) as [O N] by (split; bsp). apply okr_range in N.
      fold (StoreGpX (GP r) w e). eapply G_StoreGp; eassumption.
  - assert (O : okw w = true) by bsp. eapply G_store; [exact E| |assumption|reflexivity|exact K].
    eapply v_OpAddr; try eassumption; [bsp|reflexivity].
Qed.

Lemma G_pcc : forall g p vs rt a l Q, G g (PcConst a) vs rt l Q -> G g p vs rt (SPcConst a :: l) Q.
Proof.
  intros g p vs rt a l Q K s (R & P & VS & RT). cbn [run run1 bind]. apply K. destruct R as [A B C D E F I J]. split; [split; assumption|]. repeat split; assumption.
Qed.
Lemma G_pcv : forall g p vs rt e v l Q, vals g p vs e v -> G g (PcVal v) vs rt l Q -> G g p vs rt (SPcVal e :: l) Q.
Proof.
  intros g p vs rt e v l Q E K s A. cbn [run run1]. rewrite (E s rt A). cbn [bind]. apply K.
  destruct A as ([A B C D E' F I J] & P & VS & RT). split; [split; assumption|]. repeat split; assumption.
Qed.
Lemma G_pccond : forall g p vs rt e v a b l Q, vals g p vs e v -> G g (PcCond v a b) vs rt l Q -> G g p vs rt (SPcCond e a b :: l) Q.
Proof.
  intros g p vs rt e v a b l Q E K s A. cbn [run run1]. rewrite (E s rt A). cbn [bind]. apply K.
  destruct A as ([A B C D E' F I J] & P & VS & RT). split; [split; assumption|]. repeat split; assumption.
Qed.

(** ** Stack *)
Lemma G_push : forall g p vs rt w e v l Q, okw w = true ->
  (forall x, vals g p (upd_var vs 20 x) e (V (TInt w) (trunc w v))) ->
  G (push g w v) p (upd_var vs 20 (V TPtr (U 64 (y_r g 4 - w / 8)))) rt l Q ->
  G g p vs rt (StackPush (w / 8) e ++ l) Q.
Proof.
  intros g p vs rt w e v l Q O E K. unfold StackPush. cbn [app]. set (sp := U 64 (y_r g 4 - w / 8)) in *.
  eapply G_let with (v := V TPtr sp).
  { intros s rt' A. refine (eq_trans (v_gep c g p vs (w / 8) _ _ _ _ (v_ptr c g p vs 4 ltac:(lia)) (v_cI c g p vs 64 (-1)) s rt' A) _).
    do 2 f_equal. rewrite <- trunc_add_r, trunc_mul_l, trunc_add_r by lia. unfold sp. change U with trunc. f_equal. }
  eapply G_store; [apply E|apply v_var; reflexivity|assumption|reflexivity|].
  change RSP with (GP 4). eapply G_wreg64; [assumption|right; apply v_var; reflexivity|lia|]. exact K.
Qed.
Lemma G_pop : forall g p vs rt x n l Q, 0 <= n < 16 ->
  G (wr_reg g 64 4 (y_r g n + 8)) p
    (upd_var (upd_var vs 20 (V TPtr (y_r g n))) x (V (TInt 64) (rd_mem (y_m g) (y_r g n) 8))) rt l Q ->
  G g p vs rt (StackPop x (GP n) ++ l) Q.
Proof.
  intros g p vs rt x n l Q N K. unfold StackPop. cbn [app].
  eapply G_let; [apply v_ptr; assumption|]. change RSP with (GP 4).
  eapply G_wreg64; [assumption|right|lia|].
  { eapply v_gep; [apply v_var; reflexivity|apply v_cI]. }
  change (trunc 64 1 * 8) with 8. rewrite wr_reg_trunc by reflexivity.
  eapply G_load; [apply v_var; reflexivity|]. exact K.
Qed.

(** ** Conditions *)
Lemma fl_def : forall g f, (match y_f g f with Some _ => true | None => false end) = true -> y_f g f = Some (fl g f).
Proof. intros g f D. unfold fl. destruct (y_f g f); [reflexivity|discriminate]. Qed.
Lemma v_FlagCond : forall g p vs cc b, 0 <= cc < 16 -> cond g cc = Some b -> vals g p vs (FlagCond cc) (V (TInt 1) (b2z b)).
Proof.
  intros g p vs cc b N C. unfold cond in C. destruct (defined g (cc_reads cc)) eqn:D; [|discriminate]. injection C as <-.
  assert (B : vals g p vs (match cc / 2 with
    | 0 => GetFlag OF | 1 => GetFlag CF | 2 => GetFlag ZF | 3 => eOr (GetFlag CF) (GetFlag ZF) | 4 => GetFlag SF | 5 => GetFlag PF
    | 6 => eCmp NE (GetFlag SF) (GetFlag OF) | 7 => eOr (GetFlag ZF) (eCmp NE (GetFlag SF) (GetFlag OF)) | _ => eAssert end)
    (V (TInt 1) (b2z (cc_base (cc / 2) (fl g fCF) (fl g fZF) (fl g fSF) (fl g fPF) (fl g fOF))))).
  { unfold cc_reads in D. assert (E : cc / 2 = 0 \/ cc / 2 = 1 \/ cc / 2 = 2 \/ cc / 2 = 3 \/ cc / 2 = 4 \/ cc / 2 = 5 \/ cc / 2 = 6 \/ cc / 2 = 7) by lia.
    unfold defined in D. destruct E as [E|[E|[E|[E|[E|[E|[E|E]]]]]]]; rewrite E in *; cbn [cc_base forallb] in *;
    repeat match goal with H : _ && _ = true |- _ => apply andb_prop in H; destruct H end;
    repeat (apply v_or1 || apply v_ne1); match goal with |- vals _ _ _ (GetFlag ?r) _ => idtac end;
    first [apply (v_flag c g p vs fOF) | apply (v_flag c g p vs fCF) | apply (v_flag c g p vs fZF) | apply (v_flag c g p vs fSF) | apply (v_flag c g p vs fPF)];
    apply fl_def; assumption. }
  unfold FlagCond, cc_bool. destruct (Z.odd cc); [apply v_not1|]; exact B.
Qed.

(** ** The flags word *)
Lemma v_bit : forall g p vs f k b, y_f g f = Some b -> 0 <= k < 64 ->
  vals g p vs (eShl (eZExt 64 (GetFlag (cell f))) (cI 64 k)) (V (TInt 64) (2^k * b2z b)).
Proof.
  intros g p vs f k b D K. eapply v_eq.
  - eapply v_bin; [eapply v_zext; [apply v_flag; eassumption|lia]|apply v_cI|]. cbn [ibin].
    assert (T : trunc 64 k = k) by (apply trunc_small; unfold inr; change (2^64) with 18446744073709551616; lia).
    rewrite T. replace (k <? 64) with true by lia. reflexivity.
  - cbn beta. assert (T : trunc 64 k = k) by (apply trunc_small; unfold inr; change (2^64) with 18446744073709551616; lia).
    rewrite Z.shiftl_mul_pow2 by lia. rewrite trunc_small; [lia|]. destruct b; cbn [b2z]; unfold inr.
    + rewrite Z.mul_1_l. split; [apply Z.pow_nonneg; lia|apply Z.pow_lt_mono_r; lia].
    + split; [lia|reflexivity].
Qed.
Lemma lor_add_bits : forall a b, Z.land a b = 0 -> Z.lor a b = a + b.
Proof. intros. symmetry. apply Z.add_nocarry_lxor in H0 as E. rewrite E. apply Z.lxor_lor. assumption. Qed.
Lemma rflags_inr : forall g, inr 64 (rflags g).
Proof.
  intros g. unfold rflags, inr, bz. change (2^64) with 18446744073709551616.
  destruct (fl g fCF), (fl g fPF), (fl g fAF), (fl g fZF), (fl g fSF), (fl g fDF), (fl g fOF); lia.
Qed.
Lemma v_FlagAsReg : forall g p vs w, okw w = true -> defined g all_flags = true ->
  vals g p vs (FlagAsReg w) (V (TInt w) (trunc w (rflags g))).
Proof.
  intros g p vs w O D. unfold FlagAsReg. pose proof (okw_pos w O).
  unfold defined, all_flags in D. cbn [forallb] in D.
  repeat match goal with H : _ && _ = true |- _ => apply andb_prop in H; destruct H end.
  eapply v_trunc with (w := 64); [|lia|apply rflags_inr].
  unfold rflags_indices. cbn [fold_left fst snd].
  eapply v_eq.
  { repeat (eapply v_bin; [| |reflexivity]); [apply v_cI|..].
    all: first [apply (v_bit g p vs fCF) | apply (v_bit g p vs fPF) | apply (v_bit g p vs fAF) | apply (v_bit g p vs fZF)
      | apply (v_bit g p vs fSF) | apply (v_bit g p vs fDF) | apply (v_bit g p vs fOF)]; [apply fl_def; assumption|lia]. }
  unfold rflags. destruct (fl g fCF), (fl g fPF), (fl g fAF), (fl g fZF), (fl g fSF), (fl g fDF), (fl g fOF); reflexivity.
Qed.
Lemma odd_bit : forall v k, 0 <= k -> trunc 1 (Z.shiftr v k) = b2z (Z.odd (v / 2^k)).
Proof.
  intros v k K. rewrite Z.shiftr_div_pow2 by assumption. unfold trunc. change (2^1) with 2. rewrite Zmod_odd. reflexivity.
Qed.
Lemma G_fromreg1 : forall g p vs rt sz e v f k l Q, vals g p vs e (V (TInt sz) v) -> 0 <= k < sz -> sz <= 64 -> inr sz v ->
  G (set1 g f (Some (Z.odd (v / 2^k)))) p vs rt l Q ->
  G g p vs rt ((let bit := eLShr e (cI sz k) in
          if areg_eqb (cell f) PF then SSet (cell f) (eZExt 8 (eNot 1 (eTrunc 1 bit)))
          else SSet (cell f) (eTrunc 1 bit)) :: l) Q.
Proof.
  intros g p vs rt sz e v f k l Q E K S I KK. cbv zeta.
  assert (T : trunc sz k = k).
  { apply trunc_small. split; [lia|]. apply Z.lt_trans with sz; [lia|]. apply Z.pow_gt_lin_r; lia. }
  assert (B : vals g p vs (eTrunc 1 (eLShr e (cI sz k))) (V (TInt 1) (b2z (Z.odd (v / 2^k))))).
  { eapply v_eq; [eapply v_trunc|].
    - eapply v_bin; [exact E|apply v_cI|]. cbn [ibin]. rewrite T. replace (k <? sz) with true by lia. reflexivity.
    - lia.
    - rewrite Z.shiftr_div_pow2 by lia. unfold inr in *. split; [apply Z.div_pos; [lia|apply Z.pow_pos_nonneg; lia]|].
      apply Z.le_lt_trans with v; [|lia]. apply Z.div_le_upper_bound; [apply Z.pow_pos_nonneg; lia|].
      assert (1 <= 2^k) by (change 1 with (2^0); apply Z.pow_le_mono_r; lia). nia.
    - apply odd_bit. lia. }
  destruct f; try (replace (areg_eqb (cell _) PF) with false by reflexivity; eapply G_flag; [assumption|exact B|discriminate|exact KK]).
  replace (areg_eqb (cell fPF) PF) with true by reflexivity.
  change (cell fPF) with PF. eapply G_pf; [assumption| |reflexivity|].
  - eapply v_zext; [apply v_not1; exact B|lia].
  - destruct (Z.odd (v / 2^k)); exact KK.
Qed.
Lemma G_fromreg : forall g p vs rt sz e v l Q, vals g p vs e (V (TInt sz) v) -> (forall g', vals g' p vs e (V (TInt sz) v)) ->
  sz = 8 \/ sz = 64 -> inr sz v ->
  G (load_flags sz v g) p vs rt l Q -> G g p vs rt (FlagFromReg sz e ++ l) Q.
Proof.
  intros g p vs rt sz e v l Q E EA S I K. unfold FlagFromReg, rflags_indices.
  destruct S as [-> | ->]; cbn [FlagFromReg_loop Z.leb Z.compare Pos.compare Pos.compare_cont app].
  - apply (G_fromreg1 g p vs rt 8 e v fCF 0); try (apply EA || assumption || lia).
    apply (G_fromreg1 _ p vs rt 8 e v fPF 2); try (apply EA || assumption || lia).
    apply (G_fromreg1 _ p vs rt 8 e v fAF 4); try (apply EA || assumption || lia).
    apply (G_fromreg1 _ p vs rt 8 e v fZF 6); try (apply EA || assumption || lia).
    apply (G_fromreg1 _ p vs rt 8 e v fSF 7); try (apply EA || assumption || lia).
    eapply G_weaken; [|exact K]. repeat split; auto. intros f b. destruct f; exact (fun x => x).
  - apply (G_fromreg1 g p vs rt 64 e v fCF 0); try (apply EA || assumption || lia).
    apply (G_fromreg1 _ p vs rt 64 e v fPF 2); try (apply EA || assumption || lia).
    apply (G_fromreg1 _ p vs rt 64 e v fAF 4); try (apply EA || assumption || lia).
    apply (G_fromreg1 _ p vs rt 64 e v fZF 6); try (apply EA || assumption || lia).
    apply (G_fromreg1 _ p vs rt 64 e v fSF 7); try (apply EA || assumption || lia).
    apply (G_fromreg1 _ p vs rt 64 e v fDF 10); try (apply EA || assumption || lia).
    apply (G_fromreg1 _ p vs rt 64 e v fOF 11); try (apply EA || assumption || lia).
    eapply G_weaken; [|exact K]. repeat split; auto. intros f b. destruct f; exact (fun x => x).
Qed.

(** ** Writing an operand modulo its width *)
Lemma wr_mem_trunc : forall w m a v x, okw w = true -> wr_mem m a (bytes_of w) (trunc w v) x = wr_mem m a (bytes_of w) v x.
Proof.
  intros w m a v x O. apply wr_mem_ext; [reflexivity|]. intros k Hk. apply byte_trunc; [lia|]. pose proof (okw_bytes w O). lia.
Qed.
Lemma wr_op_trunc : forall g o v, wf_op o = true -> op_rm o = true -> gle (wr_op g o (trunc (op_bits o) v)) (wr_op g o v).
Proof.
  intros g o v W R. destruct o as [|w hi r|w v'|d|w m]; try discriminate; cbn [op_bits wf_op] in *; unfold wr_op, loc_of.
  - destruct hi; cbn [wr_loc].
    + assert (w = 8) by bsp. subst. rewrite wr_hi_trunc. apply gle_refl.
    + rewrite wr_reg_trunc by bsp. apply gle_refl.
  - cbn [wr_loc]. repeat split; auto. intros x. cbn [set_m y_m]. apply wr_mem_trunc. bsp.
Qed.
Lemma G_rmwop : forall kc g a vs rt x r o e w z v l Q, y_ip g = addr_pc_base c a -> wf_op o = true -> op_ismem o = true -> op_bits o = w ->
  good_op cfg o = true -> xkc_sound kc g -> vals g (PcConst a) vs e (V (TInt w) z) ->
  rmw_sem r w (rd_op g o) z = trunc w v ->
  G (wr_op g o v) (PcConst a) (upd_var vs x (V (TInt w) (rd_op g o))) rt l Q ->
  G g (PcConst a) vs rt (SRmw x r (OpAddrOf c cfg kc o) e :: l) Q.
Proof.
  intros kc g a vs rt x r o e w z v l Q IP W M B GO KC E S K. destruct o as [|w' hi r'|w' v'|d|w' m]; try discriminate. cbn [op_bits wf_op] in *. subst w'.
  assert (O : okw w = true) by bsp.
  cbn [OpAddrOf]. unfold OpAddr. eapply G_rmw; [eapply v_OpAddr; try eassumption; [bsp|reflexivity]|exact E|assumption|].
  cbv zeta. cbn [rd_op loc_of rd_loc] in *. unfold ea in *. rewrite S. eapply G_weaken; [|exact K].
  repeat split; auto. intros y. unfold wr_op, loc_of, wr_loc, ea. cbn [set_m y_m]. apply wr_mem_trunc. assumption.
Qed.
Lemma G_OpStoreR : forall kc g p vs rt o w e v l Q, wf_op o = true -> op_isreg o = true -> op_bits o = w ->
  vals g p vs e (V (TInt w) (trunc w v)) -> G (wr_op g o v) p vs rt l Q ->
  G g p vs rt (OpStoreGpK c cfg kc o w e ++ l) Q.
Proof.
  intros kc g p vs rt o w e v l Q W V B E K. unfold OpStoreGpK.
  destruct o as [|w' hi r|w' v'|d|w' m]; try discriminate; cbn [op_bits wf_op] in *; cbn [app]; subst w'.
  rewrite Z.eqb_refl. unfold wr_op, loc_of in K. destruct hi.
  - assert (w = 8 /\ 4 <= r <= 7) as [-> N] by bsp. cbn [andb]. replace (facet_eqb (facet_In 8) I8) with true by reflexivity.
    cbn [andb StoreGpFacet MapReg app wr_loc] in *. rewrite <- wr_hi_trunc in K.
    eapply G_wrhi; try eassumption; [apply trunc_range; lia|lia].
  - rewrite andb_false_r. cbn [MapReg wr_loc] in *. assert (okw w = true /\ okr r = true) as [O N] by (split; bsp). apply okr_range in N.
    fold (StoreGpX (GP r) w e). eapply G_StoreGp; eassumption.
Qed.
(** Writes to different places commute. *)
Definition same_loc (o0 o1 : xopnd) : bool :=
  match o0, o1 with XReg _ h r, XReg _ h' r' => eqb h h' && (r =? r') | _, _ => false end.
Lemma wr_comm : forall g o0 o1 a b, wf_op o0 = true -> wf_op o1 = true -> op_bits o1 = op_bits o0 -> op_rm o0 = true -> op_isreg o1 = true ->
  same_loc o0 o1 = false -> gle (wr_op (wr_op g o0 b) o1 a) (wr_loc (wr_op g o1 a) (loc_of g o0) b).
Proof.
  intros g o0 o1 a b W0 W1 BB R0 R1 SL. destruct o1 as [|w1 h1 r1| | |]; try discriminate.
  destruct o0 as [|w0 h0 r0| | |w0 m0]; try discriminate.
  2: { cbn [op_bits wf_op] in *. unfold wr_op. cbn [loc_of wr_loc]. destruct h1; apply gle_refl. }
  cbn [op_bits wf_op same_loc] in *. subst w1. unfold wr_op.
  destruct h0, h1; cbn [loc_of wr_loc eqb andb] in *.
  - split; [|repeat split; auto]. intros n _. unfold wr_hi. cbn [set_r y_r]. 
    destruct (Z.eqb_spec n (r1 - 4)), (Z.eqb_spec n (r0 - 4)), (Z.eqb_spec (r0 - 4) (r1 - 4)), (Z.eqb_spec (r1 - 4) (r0 - 4)); try lia; reflexivity.
  - assert (w0 = 8) by bsp. subst w0. split; [|repeat split; auto]. intros n _. unfold wr_hi, wr_reg, reg_merge. cbn [set_r y_r Z.eqb Pos.eqb]. change (2^8) with 256.
    destruct (Z.eqb_spec n r1), (Z.eqb_spec n (r0 - 4)), (Z.eqb_spec (r0 - 4) r1), (Z.eqb_spec r1 (r0 - 4)); try lia; subst; try reflexivity.
    clear. set (x := y_r g _). clearbody x. lia.
  - assert (w0 = 8) by bsp. subst w0. split; [|repeat split; auto]. intros n _. unfold wr_hi, wr_reg, reg_merge. cbn [set_r y_r Z.eqb Pos.eqb]. change (2^8) with 256.
    destruct (Z.eqb_spec n (r1 - 4)), (Z.eqb_spec n r0), (Z.eqb_spec r0 (r1 - 4)), (Z.eqb_spec (r1 - 4) r0); try lia; subst; try reflexivity.
    clear. set (x := y_r g _). clearbody x. lia.
  - split; [|repeat split; auto]. intros n _. unfold wr_reg. cbn [set_r y_r].
    destruct (Z.eqb_spec n r1), (Z.eqb_spec n r0), (Z.eqb_spec r0 r1), (Z.eqb_spec r1 r0); try lia; try reflexivity; exfalso; lia.
Qed.
End Ops.
