(** CMPXCHG and simple x86-64 instructions. *)

From Coq Require Import ZArith Lia ZifyBool List Bool.
From Verif Require Import Bits IR Facet Dsl Rv64 Rv64Spec Rv64Sim Rv64Arith Rv64Int X86 X86Spec X86Arith X86Sim X86Ops X86Gp X86Gp2.
Import ListNotations.
Open Scope Z_scope.
Ltac Zify.zify_post_hook ::= Z.div_mod_to_equations.

Ltac gle_flags := repeat split; auto; let f := fresh in let b := fresh in intros f b; destruct f; cbn; auto.
Lemma merge_self : forall w x, okw w = true -> inr 64 x -> (w = 32 -> x < 2^32) -> reg_merge w x (U w x) = x.
Proof.
  intros w x O R X. unfold reg_merge. change U with trunc. okw_split O; cbn [Z.eqb Pos.eqb].
  - unfold trunc. rewrite Z.mod_mod by lia. lia.
  - unfold trunc. rewrite Z.mod_mod by lia. lia.
  - rewrite trunc_trunc by lia. apply trunc_small. unfold inr in *. lia.
  - rewrite trunc_trunc by lia. apply trunc_small. exact R.
Qed.
Lemma eq_zf : forall w a b, 0 <= w -> inr w a -> inr w b -> zf_of w (a - b - 0) = (a =? b).
Proof.
  intros w a b W A B. unfold zf_of. change U with trunc. rewrite Z.sub_0_r, trunc_sub_cases by assumption. unfold inr in *.
  destruct (a <? b) eqn:Q; lia.
Qed.

Section Gp.
Context `{FpuOps}.
Variable c : cenv.
Variable cfg : xcfg.
Hypothesis HA : c_arch c = X86_64.
Hypothesis GB : gbase_ok c.
Notation G := (G c).
Notation vals := (vals c).
Notation done := (done c).
Variables (kc kcp : areg -> konst) (i : xinst) (g : xst) (rt : bool).
Hypothesis IP : y_ip g = addr_pc_base c (x_end i).
Hypothesis W0 : wf_op (x_op0 i) = true.
Hypothesis W1 : wf_op (x_op1 i) = true.
Hypothesis W2 : wf_op (x_op2 i) = true.
Hypothesis O0 : good_op cfg (x_op0 i) = true.
Hypothesis O1 : good_op cfg (x_op1 i) = true.
Hypothesis O2 : good_op cfg (x_op2 i) = true.
Hypothesis KC : xkc_sound kc g.
Hypothesis SH : shape_ok i = true.
Hypothesis LK : x_lock i = true -> op_ismem (x_op0 i) = true.
Hypothesis LB : x_lock i = true -> lockable (x_mn i) = true.
Notation p := (PcConst (x_end i)).
Notation ok := (ok c i g rt).

Ltac shp MN := unfold shape_ok in SH; rewrite MN in SH; cbv zeta beta iota in SH;
  repeat match goal with H : _ && _ = true |- _ => apply andb_prop in H; destruct H end.
Ltac side := match goal with
  | |- _ = addr_pc_base _ _ => first [exact IP | rewrite ?wr_op_ip, ?wr_loc_ip; exact IP]
  | |- xkc_sound _ _ => exact KC
  | |- op_val _ = true => first [assumption | apply op_rm_val; assumption | apply op_rm_val, op_isreg_rm; assumption]
  | |- op_rm _ = true => first [assumption | apply op_isreg_rm; assumption | apply op_ismem_rm; auto]
  | |- _ => first [assumption | reflexivity | lia]
  end.
Ltac ld := eapply G_OpLoad; [exact GB|side|side|side|side|side|].
Ltac nilr := match goal with |- X86Sim.G _ _ _ _ _ ?l _ => rewrite <- (app_nil_r l) end.
Ltac stv x := unfold OpStoreGp; eapply G_OpStore with (v := x); [assumption|exact GB|side|side|side|side|side|side| |].
Ltac fin := apply G_done; [|apply pcv_const; cbn [y_ip forget set_f set1]; rewrite ?wr_op_ip; exact IP].
Ltac var := apply v_var; reflexivity.
Ltac svar := apply sv_var; [reflexivity|discriminate].
Ltac isa MN := intros g' vs E; unfold isa in E; rewrite MN in E; cbv zeta beta iota in E.
Ltac okn := apply ok_nil.

Ltac opv o V I B := assert (V : op_val o = true) by side;
  lazymatch o with
  | x_op0 _ => pose proof (rdi g _ W0 V) as I; pose proof (bitsok _ W0 V) as B
  | x_op1 _ => pose proof (rdi g _ W1 V) as I; pose proof (bitsok _ W1 V) as B
  | x_op2 _ => pose proof (rdi g _ W2 V) as I; pose proof (bitsok _ W2 V) as B
  end.
(** CMPXCHG, unless the destination is the accumulator itself (see the
    refutation) or a successful 32-bit exchange finds bits above 31 in RAX. *)
Lemma L_CMPXCHG : x_mn i = X_CMPXCHG -> (forall w, x_op0 i <> XReg w false 0) ->
  (op_bits (x_op0 i) = 32 -> U 32 (y_r g 0) = rd_op g (x_op0 i) -> y_r g 0 < 2^32) ->
  (x_lock i = true -> forall x, 0 <= y_m g x < 256) ->
  ok [] (LiftCmpxchg c cfg kc i).
Proof.
  intros MN ND A32 LM. okn. shp MN. isa MN. injection E as <-. assert (BB : op_bits (x_op1 i) = op_bits (x_op0 i)) by lia.
  opv (x_op0 i) V0 J0 B0. opv (x_op1 i) V1 J1 B1. pose proof (op_bits_ok _ W0 V0) as OW.
  unfold LiftCmpxchg. rewrite BB in *. set (w := op_bits (x_op0 i)) in *. apply G_rng. intros RG.
  set (a := rd_op g (x_op0 i)) in *. set (b := rd_op g (x_op1 i)) in *. set (acc := U w (y_r g 0)) in *.
  assert (IA : inr w acc) by (apply trunc_range; lia).
  (* the final store of the accumulator *)
  assert (FS : forall gx vs1, vs1 3%nat = Some (V (TInt w) a) -> y_ip gx = y_ip g ->
    gle gx (sub_flags w acc a 0 false (if acc =? a then wr_loc g (loc_of g (x_op0 i)) b else wr_loc g (loc_of g (x_op0 i)) a)) ->
    G gx p vs1 rt (StoreGpX RAX w (vX 3)) (done (sub_flags w acc a 0 false
        (if acc =? a then wr_loc g (loc_of g (x_op0 i)) b else wr_reg (wr_loc g (loc_of g (x_op0 i)) a) w 0 a)) rt)).
  { intros gx vs1 X3 YI L. nilr. change RAX with (GP 0). eapply G_StoreGp with (v := a); [assumption|rewrite trunc_small by exact J0; apply v_var; exact X3|assumption|lia|].
    apply G_done; [|apply pcv_const; cbn [sub_flags set_f y_ip]; destruct (acc =? a); cbn [wr_reg set_r y_ip]; rewrite ?wr_loc_ip; exact IP].
    destruct L as (L1 & L2 & L3 & L4 & L5). destruct (acc =? a) eqn:Q.
    - apply Z.eqb_eq in Q. split; [|split; [exact L2|split; [exact L3|split; [exact L4|exact L5]]]].
      intros n N. cbn [wr_reg set_r y_r]. destruct (n =? 0) eqn:N0; [|apply L1; exact N]. apply Z.eqb_eq in N0. subst n. rewrite <- L1 by lia.
      assert (X : inr 64 (y_r gx 0) /\ U w (y_r gx 0) = a /\ (w = 32 -> y_r gx 0 < 2^32)).
      { rewrite L1 by lia. cbn [sub_flags set_f y_r]. pose proof (RG 0 ltac:(lia)) as R0. destruct (x_op0 i) as [|w0 h0 r0| | |w0 m0] eqn:EO; try discriminate.
        - cbn [loc_of op_bits] in *. destruct h0; cbn [wr_loc].
          + assert (w = 8 /\ 4 <= r0 <= 7) as [W8 N8] by (unfold w; cbn [wf_op] in W0; bsp). cbn [wr_hi set_r y_r]. rewrite <- Q. unfold acc. rewrite W8.
            destruct (0 =? r0 - 4) eqn:QQ; [|split; [exact R0|split; [reflexivity|lia]]]. apply Z.eqb_eq in QQ. rewrite <- QQ. split.
            * rewrite <- (Z.mod_mod b 256) by lia. rewrite Z.mod_mod by lia. apply hi_inr; [exact R0|]. unfold inr. change (2^8) with 256. lia.
            * split; [|lia]. unfold U. change (2^8) with 256. set (y := y_r g 0). clearbody y. lia.
          + cbn [wr_reg set_r y_r]. destruct (0 =? r0) eqn:QQ; [apply Z.eqb_eq in QQ; subst r0; exfalso; apply (ND w0); reflexivity|].
            split; [exact R0|split; [exact Q|intro Z32; apply A32; [exact Z32|]]]. unfold acc in Q. rewrite Z32 in Q. exact Q.
        - cbn [loc_of wr_loc set_m y_r]. split; [exact R0|split; [exact Q|intro Z32; apply A32; [exact Z32|]]]. unfold acc in Q. rewrite Z32 in Q. exact Q. }
      destruct X as (X1 & X2 & X4). rewrite <- X2. apply merge_self; assumption.
    - split; [|split; [exact L2|split; [exact L3|split; [exact L4|exact L5]]]].
      intros n N. cbn [wr_reg sub_flags set_f set_r y_r] in *. rewrite (L1 0) by lia. destruct (n =? 0); [reflexivity|apply L1; exact N]. }
  cbn [app]. change RAX with (GP 0). eapply G_let; [apply v_gp; [lia|assumption]|]. fold acc. ld. rewrite BB. fold w b.
  assert (EZ : zf_of w (acc - a - 0) = (acc =? a)) by (apply eq_zf; assumption || lia).
  destruct (x_lock i) eqn:L.
  - cbn [app]. pose proof (LK eq_refl) as M. destruct (x_op0 i) as [|w0 h0 r0| | |w0 m0] eqn:EO; try discriminate. cbn [OpAddrOf].
    unfold OpAddr. eapply G_cas; [eapply v_OpAddr; try eassumption; [cbn [wf_op] in W0; bsp|reflexivity]|var|var|assumption|].
    replace (if 7 =? 7 then m_seg m0 else 7) with (m_seg m0) by reflexivity. fold (ea g m0).
    replace (rd_mem (y_m g) (ea g m0) (bytes_of w)) with a by reflexivity. cbv zeta.
    eapply G_let; [eapply v_bin; [var|var|reflexivity]|]. rewrite <- app_assoc.
    eapply (G_sub c HA _ _ _ _ w _ _ _ acc a); [svar|svar|svar|lia|assumption|assumption|]. cbn [app]. change ZF with (cell fZF).
    eapply (G_flag c HA _ _ _ _ fZF _ (a =? acc)); [var|discriminate|]. change (GP 0) with RAX.
    apply FS; [reflexivity|destruct (a =? acc); reflexivity|]. rewrite (Z.eqb_sym acc a). cbn [loc_of wr_loc]. destruct (a =? acc) eqn:Q.
    + split; [reflexivity|split; [|split; [reflexivity|split; reflexivity]]]. intros f x. destruct f; cbn [sub_flags set1 set_f y_f xflag_eqb]; auto. rewrite EZ, (Z.eqb_sym acc a), Q. auto.
    + split; [reflexivity|split; [|split; [reflexivity|split; [reflexivity|]]]]. { intros f x. destruct f; cbn [sub_flags set1 set_f y_f xflag_eqb]; auto. rewrite EZ, (Z.eqb_sym acc a), Q. auto. }
      intros x. cbn [sub_flags set1 set_f set_m y_m]. symmetry. apply mem_same. apply LM. reflexivity.
  - rewrite <- !app_assoc. ld. cbn [app]. eapply G_let; [eapply v_bin; [var|var|reflexivity]|]. fold a w. rewrite <- !app_assoc.
    eapply (G_sub c HA _ _ _ _ w _ _ _ acc a); [svar|svar|svar|lia|assumption|assumption|].
    unfold OpStoreGp. eapply G_OpStore with (v := if acc =? a then b else a); [assumption|exact GB|exact IP|side|side|side|side|exact KC| |].
    { rewrite (trunc_small w (if acc =? a then b else a)) by (destruct (acc =? a); assumption). eapply v_eq.
      - eapply v_sel; [apply (v_flag c _ _ _ fZF (acc =? a)); cbn [sub_flags set_f y_f]; rewrite EZ; reflexivity|var|var].
      - destruct (acc =? a); reflexivity. }
    change (GP 0) with RAX. apply FS; [reflexivity|rewrite wr_op_ip; reflexivity|].
    unfold sub_flags. rewrite <- wr_f_comm. destruct (acc =? a); unfold wr_op; rewrite ?wr_loc_f; apply gle_refl.
Qed.
Lemma L_MOVBE : x_mn i = X_MOVBE -> ok [] (LiftMovbe c cfg kc i).
Proof.
  intros MN. okn. shp MN. isa MN. injection E as <-. assert (BB : op_bits (x_op1 i) = op_bits (x_op0 i)) by lia.
  opv (x_op0 i) V0 J0 B0. opv (x_op1 i) V1 J1 B1. pose proof (op_bits_ok _ W0 V0) as OW.
  assert (W3 : op_bits (x_op0 i) = 16 \/ op_bits (x_op0 i) = 32 \/ op_bits (x_op0 i) = 64) by (unfold okw in OW; lia).
  unfold LiftMovbe. ld. nilr. rewrite BB in *. stv (bswap (op_bits (x_op0 i)) (rd_op g (x_op1 i))).
  { rewrite trunc_small by (apply bswap_inr; exact W3). eapply v_intr1; [var|]. cbn [intr1_sem]. rewrite bswap_ok by exact W3. reflexivity. }
  apply G_done; [apply gle_refl|apply pcv_const; rewrite wr_op_ip; exact IP].
Qed.
Lemma L_BSWAP : x_mn i = X_BSWAP -> ok [] (LiftBswap c cfg kc i).
Proof.
  intros MN. okn. shp MN. isa MN. destruct (op_bits (x_op0 i) =? 16) eqn:N16; [discriminate|]. injection E as <-.
  assert (R0 : op_rm (x_op0 i) = true) by side. opv (x_op0 i) V0 J0 B0. pose proof (op_bits_ok _ W0 V0) as OW.
  assert (W3 : op_bits (x_op0 i) = 16 \/ op_bits (x_op0 i) = 32 \/ op_bits (x_op0 i) = 64) by (unfold okw in OW; lia).
  unfold LiftBswap. ld. nilr. stv (bswap (op_bits (x_op0 i)) (rd_op g (x_op0 i))).
  { rewrite trunc_small by (apply bswap_inr; exact W3). eapply v_intr1; [var|]. cbn [intr1_sem]. rewrite bswap_ok by exact W3. reflexivity. }
  apply G_done; [apply gle_refl|apply pcv_const; rewrite wr_op_ip; exact IP].
Qed.
Lemma L_CMOV : forall cc, x_mn i = X_CMOV cc -> ok [] (LiftCmovcc c cfg kc i cc).
Proof.
  intros cc MN. okn. shp MN. isa MN. unfold obind in E. destruct (cond g cc) as [k|] eqn:CC; [|discriminate]. injection E as <-.
  assert (BB : op_bits (x_op1 i) = op_bits (x_op0 i)) by lia.
  opv (x_op0 i) V0 J0 B0. opv (x_op1 i) V1 J1 B1.
  unfold LiftCmovcc. ld. ld. nilr. rewrite BB in *. stv (if k then rd_op g (x_op1 i) else rd_op g (x_op0 i)).
  { rewrite trunc_small by (destruct k; assumption). eapply v_eq.
    - eapply v_sel; [apply v_FlagCond; [lia|exact CC]|var|var].
    - destruct k; reflexivity. }
  apply G_done; [apply gle_refl|apply pcv_const; rewrite wr_op_ip; exact IP].
Qed.
Lemma L_SET : forall cc, x_mn i = X_SET cc -> ok [] (LiftSetcc c cfg kc i cc).
Proof.
  intros cc MN. okn. shp MN. isa MN. unfold obind in E. destruct (cond g cc) as [k|] eqn:CC; [|discriminate]. injection E as <-.
  unfold LiftSetcc. nilr. stv (bz k).
  { rewrite trunc_small by (destruct k; unfold inr; cbn; lia). change bz with b2z. eapply v_zext; [apply v_FlagCond; [lia|exact CC]|lia]. }
  apply G_done; [apply gle_refl|apply pcv_const; rewrite wr_op_ip; exact IP].
Qed.
Lemma L_CEXT : x_mn i = X_CEXT -> ok [] (LiftCext i).
Proof.
  intros MN. okn. shp MN. isa MN. injection E as <-. unfold LiftCext. nilr. change RAX with (GP 0).
  assert (OH : okw (8 * x_opsz i / 2) = true /\ okw (8 * x_opsz i) = true /\ 0 < 8 * x_opsz i / 2 <= 8 * x_opsz i).
  { assert (x_opsz i = 2 \/ x_opsz i = 4 \/ x_opsz i = 8) as [->|[->| ->]] by lia; (split; [reflexivity|split; [reflexivity|cbn; lia]]). }
  destruct OH as (OH & ON & LE).
  eapply G_StoreGp; [assumption| |exact ON|lia|].
  { eapply v_eq; [eapply v_sext; [apply v_gp; [lia|exact OH]|exact LE|apply trunc_range; lia]|]. unfold sext.
    change (sgn (8 * x_opsz i / 2) (U (8 * x_opsz i / 2) (y_r g 0))) with (S_ (8 * x_opsz i / 2) (y_r g 0)). reflexivity. }
  apply G_done; [apply gle_refl|apply pcv_const; exact IP].
Qed.
Lemma L_CSEP : x_mn i = X_CSEP -> ok [] (LiftCsep i).
Proof.
  intros MN. okn. shp MN. isa MN. injection E as <-. unfold LiftCsep. nilr. change RAX with (GP 0). change RDX with (GP 2).
  assert (ON : okw (8 * x_opsz i) = true) by (unfold okw; lia). set (n := 8 * x_opsz i) in *. assert (8 <= n <= 64) by (apply okw_pos; exact ON).
  eapply G_StoreGp; [assumption| |exact ON|lia|].
  { eapply v_bin; [apply v_gp; [lia|exact ON]|apply v_cI|].
    assert (N1 : trunc n (n - 1) = (n - 1) mod n). { rewrite (trunc_small n). - symmetry. apply Z.mod_small. lia. - unfold inr. pose proof (Z.pow_gt_lin_r 2 n). lia. }
    rewrite N1, ibin_ashr by lia. rewrite Z.mod_small by lia.
    change (sgn n (U n (y_r g 0))) with (S_ n (y_r g 0)). reflexivity. }
  apply G_done; [apply gle_refl|apply pcv_const; exact IP].
Qed.
Lemma setf_ok : forall f b e, f <> fPF -> (forall vs, vals g p vs e (V (TInt 1) (b2z b))) -> isa i g = Some (set1 g f (Some b)) ->
  ok [] [SSet (cell f) e].
Proof.
  intros f b e NP EV IS. okn. intros g' vs E. rewrite IS in E. injection E as <-.
  eapply (G_flag c HA _ _ _ _ f _ b); [apply EV|exact NP|]. apply G_done; [apply gle_refl|apply pcv_const; exact IP].
Qed.
Lemma L_CLC : x_mn i = X_CLC -> ok [] [SSet CF (cI 1 0)].
Proof. intros MN. apply (setf_ok fCF false); [discriminate|intros; apply v_cI|unfold isa; rewrite MN; reflexivity]. Qed.
Lemma L_STC : x_mn i = X_STC -> ok [] [SSet CF (cI 1 1)].
Proof. intros MN. apply (setf_ok fCF true); [discriminate|intros; apply v_cI|unfold isa; rewrite MN; reflexivity]. Qed.
Lemma L_CLD : x_mn i = X_CLD -> ok [] [SSet DF (cI 1 0)].
Proof. intros MN. apply (setf_ok fDF false); [discriminate|intros; apply v_cI|unfold isa; rewrite MN; reflexivity]. Qed.
Lemma L_STD : x_mn i = X_STD -> ok [] [SSet DF (cI 1 1)].
Proof. intros MN. apply (setf_ok fDF true); [discriminate|intros; apply v_cI|unfold isa; rewrite MN; reflexivity]. Qed.
Lemma L_CMC : x_mn i = X_CMC -> ok [] [SSet CF (eNot 1 (GetFlag CF))].
Proof.
  intros MN. okn. isa MN. unfold obind in E. destruct (y_f g fCF) as [k|] eqn:K; [|discriminate]. injection E as <-.
  change (SSet CF) with (SSet (cell fCF)). eapply (G_flag c HA _ _ _ _ fCF _ (negb k)); [apply v_not1, (v_flag c g _ _ fCF k K)|discriminate|].
  apply G_done; [apply gle_refl|apply pcv_const; exact IP].
Qed.
Lemma L_NOP : x_mn i = X_NOP -> ok [] [].
Proof. intros MN. okn. isa MN. injection E as <-. apply G_done; [apply gle_refl|apply pcv_const; exact IP]. Qed.

(** LEA; RIP-relative addressing with a 32-bit address size is not truncated by
    the lifter (see the refutation). *)
Lemma L_LEA : x_mn i = X_LEA -> (forall w m, x_op1 i = XMem w m -> m_base m = BRip -> m_asz m = 8) -> ok [] (LiftLea c cfg kc i).
Proof.
  intros MN RIP. okn. shp MN. isa MN. assert (R0 : op_rm (x_op0 i) = true) by side. opv (x_op0 i) V0 J0 B0. pose proof (op_bits_ok _ W0 V0) as OW. unfold LiftLea.
  destruct (x_op1 i) as [|w1 h1 r1| | |w1 m] eqn:EO; try discriminate. injection E as <-.
  assert (WM : wf_mem m = true) by (cbn [wf_op] in W1; bsp).
  assert (ASZ : m_asz m = 4 \/ m_asz m = 8) by (unfold wf_mem in WM; lia).
  assert (WB : forall r, m_base m = BReg r -> 0 <= r < 16).
  { intros r E. unfold wf_mem in WM. rewrite E in WM. unfold okr in WM. lia. }
  assert (WI : forall r, m_index m = Some r -> 0 <= r < 16 /\ 0 <= m_lscale m <= 3).
  { intros r E. unfold wf_mem in WM. rewrite E in WM. unfold okr in WM. lia. }
  assert (WR : m_base m = BRip -> m_index m = None).
  { intros E. unfold wf_mem in WM. rewrite E in WM. destruct (m_index m); [discriminate WM|reflexivity]. }
  clear WM. nilr. cbv zeta. set (aw := 8 * m_asz m) in *.
  assert (AW : okw aw = true) by (unfold aw; destruct ASZ as [-> | ->]; reflexivity).
  pose proof (okw_pos aw AW) as PA. change (facet_Resolve FI aw) with (facet_In aw).
  set (vl := fun e z => vals g p vs e (V (TInt aw) (trunc aw z))).
  set (ovl := fun (r : option dexp) z => match r with Some e => vl e z | None => z = 0 end).
  assert (OADD : forall x r y z, vl x y -> ovl r z -> vl (match r with Some e => eAdd x e | None => x end) (y + z)).
  { intros x r y z X Y. unfold vl, ovl in *. destruct r; [|subst z; rewrite Z.add_0_r; exact X].
    eapply v_eq; [eapply v_bin; [exact X|exact Y|reflexivity]|]. rewrite trunc_add_l, trunc_add_r by lia. reflexivity. }
  set (r0 := if m_off m =? 0 then None else Some (cI aw (m_off m))).
  assert (V_0 : ovl r0 (m_off m)). { unfold r0, ovl, vl. destruct (m_off m =? 0) eqn:Q; [lia|apply v_cI]. }
  set (r1 := match m_index m with Some x => _ | None => r0 end).
  assert (V_1 : ovl r1 (match m_index m with Some x => y_r g x * 2 ^ m_lscale m | None => 0 end + m_off m)).
  { unfold r1. destruct (m_index m) as [x|] eqn:IX; [|exact V_0]. destruct (WI x eq_refl) as [XR LS].
    unfold ovl. apply OADD; [|exact V_0]. unfold m_scale. rewrite IX. pose proof (v_gp c g p vs x aw XR AW) as VX.
    assert (m_lscale m = 0 \/ m_lscale m = 1 \/ m_lscale m = 2 \/ m_lscale m = 3) as Q by lia. unfold vl.
    destruct (1 <? 2 ^ m_lscale m) eqn:LT.
    - eapply v_eq; [eapply v_bin; [exact VX|apply v_cI|]|].
      + replace (trunc aw (if 2 ^ m_lscale m =? 2 then 1 else if 2 ^ m_lscale m =? 4 then 2 else 3)) with (m_lscale m mod aw).
        * apply ibin_shl. lia.
        * rewrite Z.mod_small by lia. destruct Q as [Q|[Q|[Q|Q]]]; rewrite Q in *; try discriminate LT; symmetry; apply trunc_small; apply (inr_le 8); try lia; unfold inr; cbn; lia.
      + rewrite Z.mod_small by lia. change U with trunc. rewrite trunc_mul_l by lia. reflexivity.
    - destruct Q as [Q|[Q|[Q|Q]]]; rewrite Q in *; try discriminate LT. rewrite Z.mul_1_r. exact VX. }
  set (res := match m_base m with BNone => _ | BRip => _ | BReg _ => _ end).
  assert (VR : exists w', vals g p vs res (V (TInt w') (ea_off g m)) /\ 0 <= w' /\ inr w' (ea_off g m)).
  { unfold res, ea_off. fold aw. destruct (m_base m) as [| |b] eqn:B.
    - exists aw. split; [|split; [lia|apply trunc_range; lia]]. rewrite Z.add_0_l. change U with trunc. destruct r1 as [e|]; [exact V_1|].
      unfold ovl in V_1. rewrite V_1. apply v_cI.
    - pose proof (RIP _ _ eq_refl B) as A8. exists 64. unfold aw. rewrite A8, (WR eq_refl), Z.add_0_r. split; [|split; [lia|apply trunc_range; lia]].
      eapply v_eq; [apply (v_pc c g _ _ (x_end i)); reflexivity|]. rewrite addr_pc_base_add, <- IP. reflexivity.
    - exists aw. split; [|split; [lia|apply trunc_range; lia]]. rewrite <- Z.add_assoc. apply (OADD (rG (GP b) (facet_In aw)) r1 (y_r g b)); [|exact V_1].
      unfold vl. change trunc with U. apply v_gp; [apply WB; auto|exact AW]. }
  destruct VR as (w' & VR & WP & IR_). stv (ea_off g m).
  { intros s rt' A. specialize (VR s rt' A). unfold ev in *. cbn [eval]. rewrite VR. cbn [bind sem1]. unfold cast_sem, cast_fun. cbn [ty_of].
    destruct (ty_eqb (TInt w') (TInt (op_bits (x_op0 i)))) eqn:TE; [|reflexivity].
    cbn [ty_eqb] in TE. assert (w' = op_bits (x_op0 i)) as <- by lia. rewrite trunc_small by exact IR_. reflexivity. }
  apply G_done; [apply gle_refl|apply pcv_const; rewrite wr_op_ip; exact IP].
Qed.
(** XLATB with a 64-bit address size. *)
Lemma L_XLAT : x_mn i = X_XLATB -> x_addrsz i = 8 -> ok [] (LiftXlat i).
Proof.
  intros MN A8. okn. shp MN. isa MN. rewrite A8 in E. injection E as <-. unfold LiftXlat. rewrite A8. cbn [Z.eqb Pos.eqb app].
  assert (V8 : vals g p vs (eSExt 64 (eZExt 32 (rG RAX I8))) (V (TInt 64) (y_r g 0 mod 256))).
  { assert (R : 0 <= y_r g 0 mod 256 < 256) by (apply Z.mod_pos_bound; lia). eapply v_eq.
    - eapply v_sext; [eapply v_zext; [change RAX with (GP 0); change I8 with (facet_In 8); apply v_gp; [lia|reflexivity]|lia]|lia|].
      apply (inr_le 8); [lia|apply trunc_range; lia].
    - unfold sext, sgn, U. change (2^8) with 256. destruct (y_r g 0 mod 256 <? 2 ^ (32 - 1)) eqn:Q; [|lia]. apply trunc_small. unfold inr. lia. }
  eapply G_load; [eapply v_gep; [change RBX with (GP 3); apply v_ptr; lia|exact V8]|].
  rewrite Z.mul_1_r. change (bytes_of 8) with 1%nat. nilr. change RAX with (GP 0).
  eapply G_StoreGp with (v := rd_mem (y_m g) (trunc 64 (y_r g 3 + y_r g 0 mod 256)) 1); [assumption| |reflexivity|lia|].
  { rewrite (trunc_small 8); [var|]. apply (X86Ops.rd_mem_inr 1). }
  apply G_done; [apply gle_refl|apply pcv_const; exact IP].
Qed.
End Gp.
