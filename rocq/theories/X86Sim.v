(** Proof infrastructure for the x86-64 lifter: relation between the model's
    register-map state and the guest state of X86Spec.v, operands and flags. *)

From Coq Require Import ZArith Lia ZifyBool List Bool.
From Verif Require Import Bits IR Facet Dsl Rv64 Rv64Spec Rv64Sim Rv64Arith X86 X86Spec X86Arith.
Import ListNotations.
Open Scope Z_scope.
Ltac Zify.zify_post_hook ::= Z.div_mod_to_equations.

(** ** Relation *)
Definition cell (f : xflag) : areg :=
  match f with fCF => CF | fPF => PF | fAF => AF | fZF => ZF | fSF => SF | fOF => OF | fDF => DF end.
(** The PF cell holds a byte whose parity is the flag. *)
Definition flag_is (s : st) (f : xflag) (b : bool) : Prop :=
  match f with
  | fPF => exists z, s_reg s PF = Some z /\ inr 8 z /\ pf_of z = b
  | _ => s_reg s (cell f) = Some (b2z b)
  end.
Record xrel (s : st) (g : xst) : Prop := XRel {
  xr_r : forall n, 0 <= n < 16 -> s_reg s (GP n) = Some (y_r g n);
  xr_rr : forall n, 0 <= n < 16 -> inr 64 (y_r g n);
  xr_fs : s_reg s FSBASE = Some (y_fs g);
  xr_fsr : inr 64 (y_fs g);
  xr_gs : s_reg s GSBASE = Some (y_gs g);
  xr_gsr : inr 64 (y_gs g);
  xr_f : forall f b, y_f g f = Some b -> flag_is s f b;
  xr_m : forall x, s_mem s x = y_m g x;
}.

(** What the lifter believes to be constant is so. *)
Definition xkc_sound (kc : areg -> konst) (g : xst) : Prop :=
  forall n z, 0 <= n < 16 -> kc (GP n) = KInt z -> y_r g n = trunc 64 z.
(** Addressing forms for which the lifter emits valid IR (the others assert or
    add an i64 segment base to an i32 address). *)
Definition good_mem (cfg : xcfg) (seg : Z) (m : xmem) : bool :=
  let fsgs := (seg =? 4) || (seg =? 5) in
  negb (fsgs && negb (xl_nativeseg cfg) && (m_asz m =? 4)) &&
  negb ((match m_base m with BRip => true | _ => false end) && (fsgs || (m_asz m =? 4))).
Definition good_op (cfg : xcfg) (o : xopnd) : bool :=
  match o with XMem _ m => good_mem cfg (m_seg m) m | _ => true end.

Lemma okw_cases : forall w, okw w = true -> w = 8 \/ w = 16 \/ w = 32 \/ w = 64.
Proof. intros w O. unfold okw in O. lia. Qed.
Ltac okw_split O := destruct (okw_cases _ O) as [?|[?|[?|?]]]; subst.
Lemma okr_range : forall r, okr r = true -> 0 <= r < 16.
Proof. unfold okr. intros. lia. Qed.

Lemma facet_In_type : forall w, okw w = true -> facet_type (facet_In w) = TInt w.
Proof. intros w O. okw_split O; reflexivity. Qed.
Lemma facet_In_size : forall w, okw w = true -> facet_size (facet_In w) = w.
Proof. intros w O. okw_split O; reflexivity. Qed.
Lemma facet_In_noH : forall w, facet_In w <> I8H.
Proof. intros w. unfold facet_In. repeat match goal with |- context [if ?b then _ else _] => destruct b end; discriminate. Qed.
Lemma get_facet_In : forall w z, okw w = true -> get_facet (Some z) (facet_In w) = V (TInt w) (trunc w z).
Proof. intros w z O. okw_split O; reflexivity. Qed.
Lemma okw_bytes : forall w, okw w = true -> 8 * Z.of_nat (bytes_of w) = w.
Proof. intros w O. okw_split O; reflexivity. Qed.
Lemma okw_pos : forall w, okw w = true -> 8 <= w <= 64.
Proof. intros w O. okw_split O; lia. Qed.

Lemma cpop_range : forall n z, 0 <= cpop n z <= Z.of_nat n.
Proof. induction n; intros; cbn [cpop]; [lia|]. specialize (IHn (z / 2)). lia. Qed.
Section Sim.
Context `{FpuOps}.
Variable c : cenv.
Variable cfg : xcfg.

(** ** Leaves *)
Lemma val_gp : forall s g n w, xrel s g -> 0 <= n < 16 -> okw w = true ->
  val c s (rG (GP n) (facet_In w)) w (U w (y_r g n)).
Proof.
  intros s g n w R N O. unfold val, ev, rG. cbn [eval leaf_val]. rewrite (xr_r _ _ R n N).
  rewrite get_facet_In by assumption. reflexivity.
Qed.
Lemma val_gp64 : forall s g n, xrel s g -> 0 <= n < 16 -> val c s (rG (GP n) I64) 64 (y_r g n).
Proof.
  intros s g n R N. pose proof (val_gp s g n 64 R N eq_refl) as E. change U with trunc in E.
  rewrite trunc_small in E by (apply (xr_rr _ _ R n N)). exact E.
Qed.
Lemma val_gphi : forall s g n, xrel s g -> 0 <= n < 16 ->
  val c s (rG (GP n) I8H) 8 ((y_r g n / 256) mod 256).
Proof.
  intros s g n R N. unfold val, ev, rG. cbn [eval leaf_val]. rewrite (xr_r _ _ R n N). cbn [get_facet facet_type facet_type_opt].
  do 2 f_equal. rewrite Z.shiftr_div_pow2 by lia. reflexivity.
Qed.
Lemma ev_ptr : forall s g n, xrel s g -> 0 <= n < 16 -> ev c s (rG (GP n) PTR) = Ok (V TPtr (y_r g n)).
Proof.
  intros s g n R N. unfold ev, rG. cbn [eval leaf_val]. rewrite (xr_r _ _ R n N). cbn [get_facet facet_type facet_type_opt facet_size].
  rewrite trunc_small; [reflexivity|apply (xr_rr _ _ R n N)].
Qed.
Lemma val_fsb : forall s g, xrel s g -> val c s (rG FSBASE I64) 64 (y_fs g).
Proof.
  intros s g R. unfold val, ev, rG. cbn [eval leaf_val]. rewrite (xr_fs _ _ R). cbn [get_facet facet_type facet_type_opt facet_size].
  rewrite trunc_small; [reflexivity|apply (xr_fsr _ _ R)].
Qed.
Lemma val_gsb : forall s g, xrel s g -> val c s (rG GSBASE I64) 64 (y_gs g).
Proof.
  intros s g R. unfold val, ev, rG. cbn [eval leaf_val]. rewrite (xr_gs _ _ R). cbn [get_facet facet_type facet_type_opt facet_size].
  rewrite trunc_small; [reflexivity|apply (xr_gsr _ _ R)].
Qed.

(** ** Addresses *)
Lemma ev_inttoptr : forall s e z, val c s e 64 z -> ev c s (E1 (OCast CIntToPtr TPtr) e) = Ok (V TPtr z).
Proof. intros s e z E. unfold val, ev in *. cbn [eval]. rewrite E. reflexivity. Qed.
Lemma ev_gep : forall s k b o a z, ev c s b = Ok (V TPtr a) -> val c s o 64 z ->
  ev c s (eGep k b o) = Ok (V TPtr (trunc 64 (a + z * k))).
Proof.
  intros s k b o a z B O. pose proof (val_bin c s Mul o (cI 64 k) 64 _ _ _ O (val_cI c s 64 k) eq_refl) as E.
  unfold val, ev, eGep, eMul in *. cbn [eval]. rewrite B. fold (ev c s) in *. rewrite E. cbn [bind sem2 gep_sem].
  do 2 f_equal. rewrite trunc_add_r by lia. rewrite <- trunc_add_r, trunc_mul_r, trunc_add_r by lia. reflexivity.
Qed.
Lemma val_add : forall s a b w x y, val c s a w x -> val c s b w y -> val c s (eAdd a b) w (trunc w (x + y)).
Proof. intros. eapply val_bin; eauto. Qed.
Lemma val_mul : forall s a b w x y, val c s a w x -> val c s b w y -> val c s (eMul a b) w (trunc w (x * y)).
Proof. intros. eapply val_bin; eauto. Qed.

(** Registers as index or base at either address size. *)
Lemma val_areg : forall s g n asz, xrel s g -> 0 <= n < 16 -> asz = 4 \/ asz = 8 ->
  val c s (rG (GP n) (if asz =? 8 then I64 else I32)) (8 * asz) (trunc (8 * asz) (y_r g n)).
Proof.
  intros s g n asz R N [-> | ->].
  - apply (val_gp s g n 32 R N eq_refl).
  - apply (val_gp s g n 64 R N eq_refl).
Qed.

Lemma ev_OpAddr : forall kc s g p seg m, xrel s g -> s_pc s = PcConst p -> y_ip g = addr_pc_base c p ->
  wf_mem m = true -> xkc_sound kc g -> gbase_ok c ->
  let sg := if seg =? 7 then m_seg m else seg in
  good_mem cfg sg m = true ->
  ev c s (OpAddrK c cfg kc m seg) = Ok (V TPtr (U 64 (ea_off g m + seg_base g sg))).
Proof.
  intros kc s g p seg m R P IP WF K G sg GM. unfold OpAddrK. fold sg.
  assert (ASZ : m_asz m = 4 \/ m_asz m = 8) by (unfold wf_mem in WF; lia).
  assert (WB : forall r, m_base m = BReg r -> 0 <= r < 16).
  { intros r E. unfold wf_mem in WF. rewrite E in WF. unfold okr in WF. lia. }
  assert (WI : forall r, m_index m = Some r -> 0 <= r < 16 /\ 0 <= m_lscale m <= 3).
  { intros r E. unfold wf_mem in WF. rewrite E in WF. unfold okr in WF. lia. }
  assert (WR : m_base m = BRip -> match m_index m with Some x => y_r g x * 2 ^ m_lscale m | None => 0 end = 0).
  { intros E. unfold wf_mem in WF. rewrite E in WF. destruct (m_index m); [discriminate WF|reflexivity]. }
  clear WF.
  destruct (((sg =? 4) || (sg =? 5)) || negb (m_asz m =? 8)) eqn:SG.
  - assert (NR : m_base m <> BRip).
    { intro E. unfold good_mem in GM. rewrite E in GM. cbn [andb] in GM.
      destruct ((sg =? 4) || (sg =? 5)), ASZ as [A|A]; rewrite A in GM, SG; try rewrite andb_false_r in GM; discriminate. }
    assert (E1 : exists z1, val c s (match m_base m with
       | BNone => cI (8 * m_asz m) (m_off m)
       | BRip => eAdd (cI (8 * m_asz m) (m_off m)) eAssert
       | BReg r => eAdd (cI (8 * m_asz m) (m_off m)) (rG (MapReg false r) (if m_asz m =? 8 then I64 else I32)) end)
       (8 * m_asz m) (trunc (8 * m_asz m) z1) /\
       z1 = match m_base m with BNone => 0 | BRip => y_ip g | BReg r => y_r g r end + m_off m).
    { destruct (m_base m) as [| |r] eqn:B; [|congruence|].
      - exists (m_off m). split; [apply val_cI|lia].
      - eexists. split; [|reflexivity]. pose proof (val_add s _ _ _ _ _ (val_cI c s (8 * m_asz m) (m_off m)) (val_areg s g r _ R (WB r eq_refl) ASZ)) as E.
        rewrite trunc_add_l, trunc_add_r in E by lia. rewrite (Z.add_comm (y_r g r)). exact E. }
    destruct E1 as (z1 & E1 & Z1).
    set (e1 := match m_base m with
       | BNone => cI (8 * m_asz m) (m_off m)
       | BRip => eAdd (cI (8 * m_asz m) (m_off m)) eAssert
       | BReg r => eAdd (cI (8 * m_asz m) (m_off m)) (rG (MapReg false r) (if m_asz m =? 8 then I64 else I32)) end) in *.
    set (e2 := match m_index m with
       | Some x => eAdd e1 (eMul (rG (MapReg false x) (if m_asz m =? 8 then I64 else I32)) (cI (8 * m_asz m) (m_scale m)))
       | None => e1 end).
    assert (E2 : val c s e2 (8 * m_asz m) (ea_off g m)).
    { unfold e2, ea_off, m_scale. destruct (m_index m) as [x|] eqn:IX.
      - pose proof (val_mul s _ _ _ _ _ (val_areg s g x _ R (proj1 (WI x eq_refl)) ASZ) (val_cI c s (8 * m_asz m) (2 ^ m_lscale m))) as M.
        rewrite trunc_mul_l, trunc_mul_r in M by lia.
        pose proof (val_add s _ _ _ _ _ E1 M) as E. rewrite trunc_add_l, trunc_add_r in E by lia.
        change U with trunc. rewrite Z1 in E.
        match goal with |- val _ _ _ _ (trunc ?w ?a) => match type of E with val _ _ _ _ (trunc _ ?b) => replace a with b by lia end end. exact E.
      - change U with trunc. rewrite Z1 in E1. rewrite Z.add_0_r. exact E1. }
    assert (OFI : inr (8 * m_asz m) (ea_off g m)) by (apply trunc_range; lia).
    destruct ((sg =? 4) || (sg =? 5)) eqn:FG; cbn [andb].
    + assert (SB : val c s (rG (if sg =? 4 then FSBASE else GSBASE) I64) 64 (seg_base g sg)).
      { unfold seg_base. destruct (sg =? 4) eqn:S4; [apply val_fsb; assumption|]. destruct (sg =? 5) eqn:S5; [apply val_gsb; assumption|discriminate]. }
      destruct (xl_nativeseg cfg) eqn:NS; cbn [negb].
      * apply ev_inttoptr. apply val_add; [|assumption]. eapply val_zext; [exact E2|lia].
      * assert (m_asz m = 8).
        { unfold good_mem in GM. rewrite FG, NS in GM. destruct ASZ as [A|A]; [rewrite A in GM; discriminate GM|exact A]. }
        apply ev_inttoptr. eapply val_zext; [|apply Z.le_refl]. rewrite H0 in *. apply val_add; assumption.
    + unfold seg_base. replace (sg =? 4) with false by (destruct (sg =? 4); [discriminate|reflexivity]).
      replace (sg =? 5) with false by (destruct (sg =? 5); [rewrite orb_true_r in FG; discriminate|reflexivity]).
      rewrite Z.add_0_r. change U with trunc. rewrite trunc_small by (eapply inr_le; [|exact OFI]; lia).
      apply ev_inttoptr. eapply val_zext; [exact E2|lia].
  - assert (A8 : m_asz m = 8) by lia. assert (FG : ((sg =? 4) || (sg =? 5)) = false) by (destruct ((sg =? 4) || (sg =? 5)); [discriminate|reflexivity]).
    assert (S0 : seg_base g sg = 0). { unfold seg_base. destruct (sg =? 4), (sg =? 5); try discriminate; reflexivity. }
    rewrite S0, Z.add_0_r. unfold ea_off. rewrite A8. change (8 * 8) with 64. change U with trunc. rewrite trunc_trunc by lia.
    assert (OB : forall base a null, ev c s base = Ok (V TPtr (trunc 64 a)) -> (null = true -> trunc 64 a = 0) ->
      ev c s (match m_index m with None => base | Some x =>
        if null then E1 (OCast CIntToPtr TPtr) (eMul (rG (MapReg false x) I64) (cI 64 (m_scale m)))
        else eGep (m_scale m) base (rG (MapReg false x) I64) end) =
      Ok (V TPtr (trunc 64 (a + match m_index m with Some x => y_r g x * 2 ^ m_lscale m | None => 0 end)))).
    { intros base a null EB NU. unfold m_scale. destruct (m_index m) as [x|] eqn:IX; [|rewrite Z.add_0_r; exact EB].
      pose proof (val_gp64 s g x R (proj1 (WI x eq_refl))) as VX. destruct null.
      - apply ev_inttoptr. pose proof (val_mul s _ _ _ _ _ VX (val_cI c s 64 (2 ^ m_lscale m))) as M.
        rewrite trunc_mul_r in M by lia. rewrite <- trunc_add_l, NU, Z.add_0_l by (reflexivity || lia). exact M.
      - change (MapReg false x) with (GP x). rewrite (ev_gep s (2 ^ m_lscale m) base _ _ _ EB VX). rewrite trunc_add_l by lia. reflexivity. }
    destruct (m_base m) as [| |r] eqn:B.
    + rewrite (OB _ (m_off m)); [f_equal; f_equal; f_equal; lia|apply ev_AddrConst; assumption|]. intro Q. apply Z.eqb_eq in Q. exact Q.
    + rewrite (ev_inttoptr s _ _ (val_pc c s p (m_off m) P)). rewrite addr_pc_base_add, <- IP.
      rewrite (WR eq_refl), Z.add_0_r. reflexivity.
    + unfold MapReg. destruct (kc (GP r)) as [|z|] eqn:KC.
      * etransitivity; [apply (OB _ (y_r g r + m_off m) false); [|discriminate]|f_equal; f_equal; f_equal; lia].
        pose proof (ev_ptr s g r R (WB r eq_refl)) as EP. destruct (m_off m =? 0) eqn:O0.
        -- apply Z.eqb_eq in O0. rewrite O0, Z.add_0_r, EP. rewrite trunc_small; [reflexivity|apply (xr_rr _ _ R r (WB r eq_refl))].
        -- destruct (negb (m_scale m =? 0) && (Z.rem (m_off m) (m_scale m) =? 0)) eqn:SC.
           ++ rewrite (ev_gep s _ _ _ _ _ EP (val_cI c s 64 _)).
              rewrite <- trunc_add_r, trunc_mul_l, trunc_add_r by lia. do 4 f_equal.
              pose proof (Z.quot_rem' (m_off m) (m_scale m)). lia.
           ++ rewrite (ev_gep s _ _ _ _ _ EP (val_cI c s 64 _)). rewrite Z.mul_1_r, trunc_add_r by lia. reflexivity.
      * etransitivity; [apply (OB _ (y_r g r + m_off m) (trunc 64 (z + m_off m) =? 0))|f_equal; f_equal; f_equal; lia].
        -- rewrite ev_AddrConst by assumption. rewrite (K r z (WB r eq_refl) KC). rewrite trunc_add_l by lia. reflexivity.
        -- intro Q. apply Z.eqb_eq in Q. rewrite (K r z (WB r eq_refl) KC). rewrite trunc_add_l by lia. exact Q.
      * etransitivity; [apply (OB _ (y_r g r + m_off m) false); [|discriminate]|f_equal; f_equal; f_equal; lia].
        apply ev_inttoptr. pose proof (val_add s _ _ _ _ _ (val_gp64 s g r R (WB r eq_refl)) (val_cI c s 64 (m_off m))) as E.
        rewrite trunc_add_r in E by lia. exact E.
Qed.

(** ** Triples *)
Definition At (g : xst) (p : pcreg) (vs : nat -> option rv) (rt : bool) (s : st) : Prop :=
  xrel s g /\ s_pc s = p /\ s_var s = vs /\ s_ret s = rt.
(** From every state described by (g,p,vs,rt), [l] runs to a state satisfying [Q]. *)
Definition G (g : xst) (p : pcreg) (vs : nat -> option rv) (rt : bool) (l : list stm) (Q : st -> Prop) : Prop :=
  forall s, At g p vs rt s -> exists s', run c s l = Ok s' /\ Q s'.
(** [e] evaluates to [v]. *)
Definition vals (g : xst) (p : pcreg) (vs : nat -> option rv) (e : dexp) (v : rv) : Prop :=
  forall s rt, At g p vs rt s -> ev c s e = Ok v.
(** Order on guest states: same registers and memory, fewer defined flags. *)
Definition gle (g g' : xst) : Prop :=
  (forall n, 0 <= n < 16 -> y_r g n = y_r g' n) /\
  (forall f b, y_f g' f = Some b -> y_f g f = Some b) /\
  y_fs g = y_fs g' /\ y_gs g = y_gs g' /\ (forall x, y_m g x = y_m g' x).
Lemma gle_refl : forall g, gle g g.
Proof. intros. repeat split; auto. Qed.
Lemma gle_trans : forall a b d, gle a b -> gle b d -> gle a d.
Proof.
  intros a b d (A1 & A2 & A3 & A4 & A5) (B1 & B2 & B3 & B4 & B5). repeat split; intros; try congruence; auto.
  rewrite A1 by assumption. auto.
Qed.
Lemma xrel_gle : forall s g g', xrel s g -> gle g g' -> xrel s g'.
Proof.
  intros s g g' [A B C D E F I J] (G1 & G2 & G3 & G4 & G5). split; intros; auto; try (rewrite <- G1 by assumption; auto); congruence.
Qed.
Lemma G_weaken : forall g g' p vs rt l Q, gle g g' -> G g' p vs rt l Q -> G g p vs rt l Q.
Proof.
  intros g g' p vs rt l Q L K s (R & P & VS & RT). apply K. split; [eapply xrel_gle; eassumption|auto].
Qed.
Lemma G_app : forall l1 l2 g p vs rt Q,
  G g p vs rt l1 (fun s' => exists s'', run c s' l2 = Ok s'' /\ Q s'') -> G g p vs rt (l1 ++ l2) Q.
Proof.
  intros l1 l2 g p vs rt Q K s A. destruct (K s A) as (s1 & E1 & s2 & E2 & Q2). exists s2. split; [|exact Q2].
  rewrite run_app, E1. exact E2.
Qed.

(** Final states. *)
Definition done (g : xst) (rt : bool) (s : st) : Prop :=
  xrel s g /\ pc_value c (s_pc s) 0 = Ok (V (TInt 64) (y_ip g)) /\ s_ret s = rt.
Lemma G_done : forall g g' p vs rt, gle g g' -> pc_value c p 0 = Ok (V (TInt 64) (y_ip g')) ->
  G g p vs rt [] (done g' rt).
Proof.
  intros g g' p vs rt L P s (R & PC & VS & RT). exists s. split; [reflexivity|]. split; [eapply xrel_gle; eassumption|].
  rewrite PC. split; assumption.
Qed.

Lemma xrel_mem : forall s g m m', xrel s g -> (forall x, m x = m' x) -> xrel (with_mem s m) (set_m g m').
Proof. intros s g m m' [A B C D E F I J] M. split; assumption. Qed.
Lemma xrel_var : forall s g v, xrel s g -> xrel (with_var s v) g.
Proof. intros s g v [A B C D E F I J]. split; assumption. Qed.
(** *** Steps *)
Lemma upd_reg_eq : forall m r v, upd_reg m r v r = v.
Proof. intros. unfold upd_reg. rewrite (proj2 (areg_eqb_eq r r) eq_refl). reflexivity. Qed.
Lemma G_let : forall g p vs rt x e v l Q, vals g p vs e v -> G g p (upd_var vs x v) rt l Q ->
  G g p vs rt (SLet x e :: l) Q.
Proof.
  intros g p vs rt x e v l Q E K s A. rewrite (run_let c s x e v l (E s rt A)).
  destruct A as (R & P & VS & RT). apply K. subst vs. split; [apply xrel_var; assumption|auto].
Qed.
Lemma G_load : forall g p vs rt x w e a l Q, vals g p vs e (V TPtr a) ->
  G g p (upd_var vs x (V (TInt w) (rd_mem (y_m g) a (bytes_of w)))) rt l Q ->
  G g p vs rt (SLoad x (TInt w) e :: l) Q.
Proof.
  intros g p vs rt x w e a l Q E K s A. cbn [run run1]. rewrite (E s rt A). cbn [bind load_rv]. rewrite load_rd.
  destruct A as (R & P & VS & RT). rewrite (rd_mem_ext _ _ _ a (xr_m _ _ R)). apply K. subst vs. split; [apply xrel_var; assumption|auto].
Qed.
Lemma bytes_le : forall w, okw w = true -> (bytes_of w <= 64)%nat.
Proof. intros w O. okw_split O; vm_compute; lia. Qed.
Lemma G_store : forall g p vs rt e w z v ea a l Q, vals g p vs e (V (TInt w) z) -> vals g p vs ea (V TPtr a) ->
  okw w = true -> z = trunc w v ->
  G (set_m g (wr_mem (y_m g) a (bytes_of w) v)) p vs rt l Q -> G g p vs rt (SStore e ea :: l) Q.
Proof.
  intros g p vs rt e w z v ea a l Q E EA O Z K s A. cbn [run run1]. rewrite (E s rt A), (EA s rt A). cbn [bind store_rv].
  destruct A as (R & P & VS & RT). apply K. split; [|auto]. apply xrel_mem; [assumption|].
  intros x. unfold nbytes. cbn [tsize]. fold (bytes_of w).
  rewrite store_wr by (apply bytes_le; assumption). apply wr_mem_ext; [apply R|].
  intros k Hk. subst z. apply byte_trunc; [lia|]. pose proof (okw_bytes w O). lia.
Qed.
Lemma G_rmw : forall g p vs rt x o ea e w z a l Q, vals g p vs ea (V TPtr a) -> vals g p vs e (V (TInt w) z) ->
  okw w = true ->
  let old := rd_mem (y_m g) a (bytes_of w) in
  G (set_m g (wr_mem (y_m g) a (bytes_of w) (rmw_sem o w old z))) p (upd_var vs x (V (TInt w) old)) rt l Q ->
  G g p vs rt (SRmw x o ea e :: l) Q.
Proof.
  intros g p vs rt x o ea e w z a l Q EA E O old K s A. cbn [run run1]. rewrite (EA s rt A), (E s rt A). cbn [bind load_rv store_rv].
  destruct A as (R & P & VS & RT). rewrite load_rd, (rd_mem_ext _ _ _ a (xr_m _ _ R)). apply K. subst vs. split; [|auto]. apply xrel_mem; [apply xrel_var; assumption|].
  intros y. unfold nbytes. cbn [tsize]. fold (bytes_of w).
  rewrite store_wr by (apply bytes_le; assumption). apply wr_mem_ext; [apply R|]. reflexivity.
Qed.
Lemma G_cas : forall g p vs rt x y ea ek e w k z a l Q, vals g p vs ea (V TPtr a) -> vals g p vs ek (V (TInt w) k) ->
  vals g p vs e (V (TInt w) z) -> okw w = true ->
  let old := rd_mem (y_m g) a (bytes_of w) in
  G (if old =? k then set_m g (wr_mem (y_m g) a (bytes_of w) z) else g) p
    (upd_var (upd_var vs x (V (TInt w) old)) y (V (TInt 1) (b2z (old =? k)))) rt l Q ->
  G g p vs rt (SCas x y ea ek e :: l) Q.
Proof.
  intros g p vs rt x y ea ek e w k z a l Q EA EK E O old K s A. cbn [run run1]. rewrite (EA s rt A), (EK s rt A), (E s rt A).
  cbn [bind load_rv store_rv ty_of]. rewrite ty_eqb_refl. unfold load_rv. cbn [bind].
  destruct A as (R & P & VS & RT). unfold nbytes. cbn [tsize]. fold (bytes_of w). rewrite load_rd, (rd_mem_ext _ _ _ a (xr_m _ _ R)). fold old.
  revert K. destruct (old =? k); intros K; cbn [bind]; apply K; subst vs; (split; [|repeat split; assumption]).
  - apply xrel_mem; [apply xrel_var; exact R|]. intros t. rewrite store_wr by (apply bytes_le; assumption).
    apply wr_mem_ext; [apply R|]. reflexivity.
  - destruct R as [R1 R2 R3 R4 R5 R6 R7 R8]. split; assumption.
Qed.

Hypothesis HA : c_arch c = X86_64.
Hypothesis GB : gbase_ok c.

Lemma native_gp : forall n, native_size (c_arch c) (GP n) = 64.
Proof. intros. rewrite HA. reflexivity. Qed.

Lemma reg_inr_upd : forall g r v, (forall n, 0 <= n < 16 -> inr 64 (y_r g n)) -> inr 64 v ->
  forall n, 0 <= n < 16 -> inr 64 (if n =? r then v else y_r g n).
Proof. intros g r v I V n N. destruct (n =? r); auto. Qed.
(** Writing a register cell. *)
Lemma xrel_reg : forall s g r z, xrel s g -> 0 <= r < 16 -> inr 64 z ->
  xrel (with_reg s (upd_reg (s_reg s) (GP r) (Some z))) (set_r g (fun k => if k =? r then z else y_r g k)).
Proof.
  intros s g r z R N I. pose proof R as [A B C D E F J M]. split; cbn [set_r y_r y_f y_fs y_gs y_m with_reg s_reg s_mem]; try assumption.
  - intros n Hn. unfold upd_reg. cbn [areg_eqb]. rewrite (Z.eqb_sym n r). destruct (r =? n); auto.
  - intros n Hn. destruct (n =? r); auto.
  - unfold upd_reg, FSBASE. cbn [areg_eqb]. destruct (r =? 257) eqn:Q; [lia|exact C].
  - unfold upd_reg, GSBASE. cbn [areg_eqb]. destruct (r =? 256) eqn:Q; [lia|exact E].
  - intros f b Hf. specialize (J f b Hf). destruct f; exact J.
Qed.
Lemma G_set : forall g p vs rt r e t z l Q, vals g p vs e (V t z) -> 0 <= r < 16 ->
  G (set_r g (fun k => if k =? r then trunc 64 z else y_r g k)) p vs rt l Q -> G g p vs rt (SSet (GP r) e :: l) Q.
Proof.
  intros g p vs rt r e t z l Q E N K s A. cbn [run run1]. rewrite (E s rt A). cbn [bind set_cell]. rewrite native_gp.
  destruct A as (R & P & VS & RT). apply K. split; [|repeat split; assumption].
  apply xrel_reg; try assumption. apply trunc_range. lia.
Qed.
Lemma G_wreg64 : forall g p vs rt r e z l Q, vals g p vs e (V (TInt 64) z) \/ vals g p vs e (V TPtr z) -> 0 <= r < 16 ->
  G (wr_reg g 64 r z) p vs rt l Q -> G g p vs rt (SSet (GP r) e :: l) Q.
Proof. intros g p vs rt r e z l Q [E|E] N K; eapply G_set; try eassumption. Qed.
Lemma G_wreg32 : forall g p vs rt r e z l Q, vals g p vs e (V (TInt 32) z) -> inr 32 z -> 0 <= r < 16 ->
  G (wr_reg g 32 r z) p vs rt l Q -> G g p vs rt (SSet (GP r) e :: l) Q.
Proof.
  intros g p vs rt r e z l Q E I N K. eapply G_set; [eassumption|assumption|].
  rewrite trunc_small by (apply (inr_le 32); [lia|assumption]).
  unfold wr_reg, reg_merge in K. cbn [Z.eqb Pos.eqb] in K. change U with trunc in K.
  rewrite trunc_small in K by assumption. exact K.
Qed.
Lemma G_merge : forall g p vs rt r w e z l Q, vals g p vs e (V (TInt w) z) -> w = 8 \/ w = 16 -> inr w z -> 0 <= r < 16 ->
  G (wr_reg g w r z) p vs rt l Q -> G g p vs rt (SMerge (GP r) e :: l) Q.
Proof.
  intros g p vs rt r w e z l Q E W I N K s A. cbn [run run1]. rewrite (E s rt A). cbn [bind merge_cell tsize]. rewrite native_gp.
  replace (64 <=? w) with false by lia. destruct A as (R & P & VS & RT). rewrite (xr_r _ _ R r N).
  apply K. split; [|repeat split; assumption]. rewrite merge_val by (try apply (xr_rr _ _ R); try assumption; lia).
  assert (Z.eqb w 64 = false /\ Z.eqb w 32 = false) as [E1 E2] by lia.
  unfold wr_reg, reg_merge. rewrite E1, E2. rewrite (Z.mod_small z) by exact I.
  apply xrel_reg; try assumption. apply merge_inr; try assumption; [lia|apply (xr_rr _ _ R); assumption].
Qed.

(** *** Values *)
Section Vals.
Variables (g : xst) (p : pcreg) (vs : nat -> option rv).
Notation vl := (vals g p vs).
Lemma v_cI : forall w z, vl (cI w z) (V (TInt w) (trunc w z)).
Proof. intros w z s rt A. reflexivity. Qed.
Lemma v_var : forall x v, vs x = Some v -> vl (vX x) v.
Proof. intros x v E s rt (_ & _ & VS & _). unfold ev, vX. cbn [eval leaf_val]. rewrite VS, E. reflexivity. Qed.
Lemma v_gp : forall n w, 0 <= n < 16 -> okw w = true -> vl (rG (GP n) (facet_In w)) (V (TInt w) (U w (y_r g n))).
Proof. intros n w N O s rt (R & _). apply (val_gp s g n w R N O). Qed.
Lemma v_gp64 : forall n, 0 <= n < 16 -> vl (rG (GP n) I64) (V (TInt 64) (y_r g n)).
Proof. intros n N s rt (R & _). apply (val_gp64 s g n R N). Qed.
Lemma v_gphi : forall n, 0 <= n < 16 -> vl (rG (GP n) I8H) (V (TInt 8) ((y_r g n / 256) mod 256)).
Proof. intros n N s rt (R & _). apply (val_gphi s g n R N). Qed.
Lemma v_ptr : forall n, 0 <= n < 16 -> vl (rG (GP n) PTR) (V TPtr (y_r g n)).
Proof. intros n N s rt (R & _). apply (ev_ptr s g n R N). Qed.
Lemma v_pc : forall a off, p = PcConst a -> vl (ELeaf (DPc off)) (V (TInt 64) (addr_pc_base c (a + off))).
Proof. intros a off E s rt (_ & P & _). apply val_pc. congruence. Qed.
Lemma v_bin : forall op a b w x y z, vl a (V (TInt w) x) -> vl b (V (TInt w) y) -> ibin op w x y = IV z ->
  vl (eBin op a b) (V (TInt w) z).
Proof. intros op a b w x y z A B I s rt At_. eapply val_bin; [apply (A s rt At_)|apply (B s rt At_)|assumption]. Qed.
Lemma v_cmp : forall o a b w x y, vl a (V (TInt w) x) -> vl b (V (TInt w) y) ->
  vl (eCmp o a b) (V (TInt 1) (b2z (icmp_sem o w x y))).
Proof. intros o a b w x y A B s rt At_. eapply val_cmp; [apply (A s rt At_)|apply (B s rt At_)]. Qed.
Lemma v_sel : forall k a b w z x y, vl k (V (TInt 1) (b2z z)) -> vl a (V (TInt w) x) -> vl b (V (TInt w) y) ->
  vl (eSel k a b) (V (TInt w) (if z then x else y)).
Proof.
  intros k a b w z x y K A B s rt At_. pose proof (val_sel c s k a b w _ _ _ (K s rt At_) (A s rt At_) (B s rt At_)) as E.
  destruct z; exact E.
Qed.
(** A select yields the chosen value even if the other one is poison. *)
Lemma v_sel_l : forall k a b w x t, vl k (V (TInt 1) 1) -> vl a (V (TInt w) x) -> vl b t -> ty_of t = TInt w ->
  vl (eSel k a b) (V (TInt w) x).
Proof.
  intros k a b w x t K A B T s rt At_. unfold ev, eSel. cbn [eval]. pose proof (K s rt At_) as E1. pose proof (A s rt At_) as E2.
  pose proof (B s rt At_) as E3. unfold ev in *. rewrite E1, E2, E3. cbn [bind sem3]. unfold sel_sem. rewrite T. cbn [ty_of]. rewrite ty_eqb_refl. reflexivity.
Qed.
Lemma v_sel_r : forall k a b w x t, vl k (V (TInt 1) 0) -> vl b (V (TInt w) x) -> vl a t -> ty_of t = TInt w ->
  vl (eSel k a b) (V (TInt w) x).
Proof.
  intros k a b w x t K B A T s rt At_. unfold ev, eSel. cbn [eval]. pose proof (K s rt At_) as E1. pose proof (A s rt At_) as E2.
  pose proof (B s rt At_) as E3. unfold ev in *. rewrite E1, E2, E3. cbn [bind sem3]. unfold sel_sem. rewrite T. cbn [ty_of]. rewrite ty_eqb_refl. reflexivity.
Qed.
Lemma v_zext : forall a w w' x, vl a (V (TInt w) x) -> w <= w' -> vl (eZExt w' a) (V (TInt w') x).
Proof. intros a w w' x A L s rt At_. eapply val_zext; [apply (A s rt At_)|assumption]. Qed.
Lemma v_sext : forall a w w' x, vl a (V (TInt w) x) -> 0 < w <= w' -> inr w x -> vl (eSExt w' a) (V (TInt w') (sext w w' x)).
Proof. intros a w w' x A L I s rt At_. eapply val_sext; [apply (A s rt At_)|assumption|assumption]. Qed.
Lemma v_trunc : forall a w w' x, vl a (V (TInt w) x) -> 0 <= w' <= w -> inr w x -> vl (eTrunc w' a) (V (TInt w') (trunc w' x)).
Proof. intros a w w' x A L I s rt At_. eapply val_trunc; [apply (A s rt At_)|assumption|assumption]. Qed.
Lemma v_intr1 : forall i a w x z, vl a (V (TInt w) x) -> intr1_sem i w x = IV z -> vl (E1 (OIntr1 i) a) (V (TInt w) z).
Proof. intros i a w x z A I s rt At_. eapply val_intr1; [apply (A s rt At_)|assumption]. Qed.
Lemma v_fsh : forall l a b k w x y z, vl a (V (TInt w) x) -> vl b (V (TInt w) y) -> vl k (V (TInt w) z) ->
  vl (E3 (OFsh l) a b k) (V (TInt w) (fsh_sem l w x y z)).
Proof. intros l a b k w x y z A B K s rt At_. eapply val_fsh; [apply (A s rt At_)|apply (B s rt At_)|apply (K s rt At_)]. Qed.
Lemma v_ov : forall o a b w x y, vl a (V (TInt w) x) -> vl b (V (TInt w) y) -> vl (E2 (OOv o) a b) (V (TInt 1) (b2z (ov_sem o w x y))).
Proof.
  intros o a b w x y A B s rt At_. unfold ev. cbn [eval]. pose proof (A s rt At_) as E1. pose proof (B s rt At_) as E2. unfold ev in *.
  rewrite E1, E2. cbn [bind sem2]. unfold ov_rv, same2. cbn [ty_of]. rewrite ty_eqb_refl. reflexivity.
Qed.
Lemma v_gep : forall k b o a z, vl b (V TPtr a) -> vl o (V (TInt 64) z) -> vl (eGep k b o) (V TPtr (trunc 64 (a + z * k))).
Proof. intros k b o a z B O s rt At_. apply ev_gep; [apply (B s rt At_)|apply (O s rt At_)]. Qed.
Lemma v_i2p : forall e z, vl e (V (TInt 64) z) -> vl (E1 (OCast CIntToPtr TPtr) e) (V TPtr z).
Proof. intros e z E s rt At_. apply ev_inttoptr. apply (E s rt At_). Qed.
Lemma v_eq : forall e w z z', vl e (V (TInt w) z) -> z = z' -> vl e (V (TInt w) z').
Proof. intros e w z z' E <-. exact E. Qed.
Lemma v_not : forall e w z, vl e (V (TInt w) z) -> 0 <= w -> inr w z -> vl (eNot w e) (V (TInt w) (2^w - 1 - z)).
Proof.
  intros e w z E W I. unfold eNot. eapply v_bin; [exact E|apply v_cI|]. cbn [ibin]. f_equal.
  rewrite trunc_m1 by lia. replace (2^w - 1) with (Z.ones w) by (rewrite Z.ones_equiv; lia). fold (bnot w z). rewrite bnot_val by assumption. rewrite Z.ones_equiv. lia.
Qed.
Lemma v_not1 : forall e b, vl e (V (TInt 1) (b2z b)) -> vl (eNot 1 e) (V (TInt 1) (b2z (negb b))).
Proof.
  intros e b E. eapply v_eq; [apply v_not; [exact E|lia|apply inr_b2z; lia]|]. destruct b; reflexivity.
Qed.
Lemma v_or1 : forall a b x y, vl a (V (TInt 1) (b2z x)) -> vl b (V (TInt 1) (b2z y)) -> vl (eOr a b) (V (TInt 1) (b2z (x || y))).
Proof. intros a b x y A B. eapply v_bin; [exact A|exact B|]. destruct x, y; reflexivity. Qed.
Lemma v_and1 : forall a b x y, vl a (V (TInt 1) (b2z x)) -> vl b (V (TInt 1) (b2z y)) -> vl (eAnd a b) (V (TInt 1) (b2z (x && y))).
Proof. intros a b x y A B. eapply v_bin; [exact A|exact B|]. destruct x, y; reflexivity. Qed.
Lemma v_ne1 : forall a b x y, vl a (V (TInt 1) (b2z x)) -> vl b (V (TInt 1) (b2z y)) -> vl (eCmp NE a b) (V (TInt 1) (b2z (xorb x y))).
Proof. intros a b x y A B. eapply v_eq; [eapply v_cmp; [exact A|exact B]|]. destruct x, y; reflexivity. Qed.
Lemma v_flag : forall f b, y_f g f = Some b -> vl (GetFlag (cell f)) (V (TInt 1) (b2z b)).
Proof.
  intros f b E s rt A. pose proof A as (R & _). pose proof (xr_f _ _ R f b E) as F.
  destruct f; unfold GetFlag, cell; cbn [flag_is cell] in F.
  1, 3, 4, 5, 6, 7: unfold ev, rG; cbn [areg_eqb PF CF AF ZF SF OF DF Z.eqb Pos.eqb eval leaf_val]; rewrite F; destruct b; reflexivity.
  destruct F as (z & F & I & Pz). replace (areg_eqb PF PF) with true by reflexivity.
  assert (E1 : val c s (rG PF I8) 8 z). { unfold val, ev, rG. cbn [eval leaf_val]. rewrite F. cbn [get_facet facet_type facet_type_opt facet_size]. rewrite trunc_small by assumption. reflexivity. }
  pose proof (val_intr1 c s Ctpop _ _ _ _ E1 eq_refl) as E2. unfold popcount in E2. rewrite popcount_cpop in E2. change (Z.to_nat 8) with 8%nat in E2.
  pose proof (val_trunc c s _ 8 1 _ E2 ltac:(lia)) as E3.
  pose proof (cpop_range 8 z). specialize (E3 ltac:(split; [lia|change (2^8) with 256; lia])).
  pose proof (val_bin c s Xor _ _ 1 _ _ _ E3 (val_cI c s 1 (-1)) eq_refl) as E4.
  unfold val in E4. etransitivity; [exact E4|]. do 2 f_equal. rewrite <- Pz. unfold pf_of, trunc. change (2^1) with 2.
  rewrite <- Z.negb_odd, Zmod_odd. destruct (Z.odd (cpop 8 z)); reflexivity.
Qed.
End Vals.

(** *** Flag writes *)
Lemma areg_flag_ne : forall f f', cell f <> cell f' -> areg_eqb (cell f) (cell f') = false.
Proof. intros f f' N. destruct f, f'; try reflexivity; exfalso; apply N; reflexivity. Qed.
Lemma native_flag : forall f, native_size (c_arch c) (cell f) = match f with fPF => 8 | _ => 1 end.
Proof. intros. rewrite HA. destruct f; reflexivity. Qed.
Lemma xrel_flag : forall s g f b o, xrel s g -> (forall b', b = Some b' -> flag_is (with_reg s (upd_reg (s_reg s) (cell f) o)) f b') ->
  xrel (with_reg s (upd_reg (s_reg s) (cell f) o)) (set1 g f b).
Proof.
  intros s g f b o R F. pose proof R as [A B C D E F' J M].
  split; cbn [set1 set_f y_r y_f y_fs y_gs y_m with_reg s_reg s_mem] in *; try assumption.
  - intros n N. unfold upd_reg. replace (areg_eqb (cell f) (GP n)) with false by (destruct f; reflexivity). auto.
  - unfold upd_reg. replace (areg_eqb (cell f) FSBASE) with false by (destruct f; reflexivity). auto.
  - unfold upd_reg. replace (areg_eqb (cell f) GSBASE) with false by (destruct f; reflexivity). auto.
  - intros f' b' Hf. destruct (xflag_eqb f f') eqn:EQ.
    + assert (f = f') by (destruct f, f'; try discriminate; reflexivity). subst f'. apply F. exact Hf.
    + specialize (J f' b' Hf). assert (N : areg_eqb (cell f) (cell f') = false) by (destruct f, f'; try discriminate; reflexivity).
      unfold flag_is, upd_reg in *. cbn [with_reg s_reg]. destruct f'; cbn [cell] in *; rewrite N; exact J.
Qed.
Lemma G_flag : forall g p vs rt f e b l Q, vals g p vs e (V (TInt 1) (b2z b)) -> f <> fPF ->
  G (set1 g f (Some b)) p vs rt l Q -> G g p vs rt (SSet (cell f) e :: l) Q.
Proof.
  intros g p vs rt f e b l Q E N K s A. cbn [run run1]. rewrite (E s rt A). cbn [bind set_cell]. rewrite native_flag.
  destruct A as (R & P & VS & RT). apply K. split; [|repeat split; assumption]. apply xrel_flag; [assumption|].
  intros b' EB. injection EB as <-. destruct f; try congruence; cbn [flag_is cell with_reg s_reg]; rewrite upd_reg_eq, trunc_small by (apply inr_b2z; lia); reflexivity.
Qed.
Lemma G_pf : forall g p vs rt e t z b l Q, vals g p vs e (V t z) -> b = pf_of z ->
  G (set1 g fPF (Some b)) p vs rt l Q -> G g p vs rt (SSet PF e :: l) Q.
Proof.
  intros g p vs rt e t z b l Q E -> K s A. cbn [run run1]. rewrite (E s rt A). cbn [bind set_cell]. change PF with (cell fPF). rewrite native_flag.
  destruct A as (R & P & VS & RT). apply K. split; [|repeat split; assumption]. apply xrel_flag; [assumption|].
  intros b' EB. injection EB as <-. cbn [flag_is cell with_reg s_reg]. exists (trunc 8 z). rewrite upd_reg_eq. split; [reflexivity|].
  split; [apply trunc_range; lia|]. apply pf_trunc. lia.
Qed.
Lemma G_undef1 : forall g p vs rt f t l Q, G (set1 g f None) p vs rt l Q -> G g p vs rt (SSet (cell f) (EUndef t) :: l) Q.
Proof.
  intros g p vs rt f t l Q K s (R & P & VS & RT). cbn [run run1 ev eval bind set_cell]. unfold ev. cbn [eval bind set_cell].
  apply K. split; [|repeat split; assumption]. apply xrel_flag; [assumption|discriminate].
Qed.
Lemma G_undef : forall fs g p vs rt l Q, G (forget fs g) p vs rt l Q -> G g p vs rt (SetFlagUndef (map cell fs) ++ l) Q.
Proof.
  induction fs as [|f fs IH]; intros g p vs rt l Q K.
  - cbn [SetFlagUndef map app]. eapply G_weaken; [|exact K]. repeat split; auto.
  - unfold SetFlagUndef. cbn [map app]. apply G_undef1. apply IH. eapply G_weaken; [|exact K]. 
    repeat split; auto. intros f' b. unfold forget, set1. cbn [y_f set_f existsb]. 
    replace (xflag_eqb f' f) with (xflag_eqb f f') by (destruct f, f'; reflexivity).
    destruct (xflag_eqb f f'), (existsb (xflag_eqb f') fs); cbn [orb]; congruence.
Qed.
Lemma G_setT : forall g p vs rt r tr t a b d l Q, G g p vs rt (SSet r (transform_exp tr t a b d) :: l) Q ->
  G g p vs rt (SSetT r tr t a b d :: l) Q.
Proof. intros g p vs rt r tr t a b d l Q K s A. exact (K s A). Qed.

(** Values that depend on temporaries other than 21 only. *)
Definition sv (vs : nat -> option rv) (e : dexp) (v : rv) : Prop :=
  forall s, (forall x, x <> 21%nat -> s_var s x = vs x) -> ev c s e = Ok v.
Lemma sv_var : forall vs x v, vs x = Some v -> x <> 21%nat -> sv vs (vX x) v.
Proof. intros vs x v E N s A. unfold ev, vX. cbn [eval leaf_val]. rewrite A, E by assumption. reflexivity. Qed.
Lemma sv_cI : forall vs w z, sv vs (cI w z) (V (TInt w) (trunc w z)).
Proof. intros vs w z s A. reflexivity. Qed.
Lemma sv_vals : forall g p vs e v, sv vs e v -> vals g p vs e v.
Proof. intros g p vs e v S s rt (_ & _ & VS & _). apply S. intros. rewrite VS. reflexivity. Qed.
Lemma sv_upd : forall vs e v x, sv vs e v -> sv (upd_var vs 21 x) e v.
Proof.
  intros vs e v x S s A. apply S. intros y N. rewrite A by assumption. unfold upd_var. destruct (Nat.eqb_spec 21 y); [congruence|reflexivity].
Qed.

Lemma G_zf : forall g p vs rt w e r l Q, vals g p vs e (V (TInt w) (trunc w r)) -> 0 < w ->
  G (set1 g fZF (Some (zf_of w r))) p vs rt l Q -> G g p vs rt (FlagCalcZ w e ++ l) Q.
Proof.
  intros g p vs rt w e r l Q E W K. apply G_setT. apply (G_flag g p vs rt fZF _ (zf_of w r)); [|discriminate|exact K].
  eapply v_eq; [eapply v_cmp; [exact E|apply v_cI]|]. cbn [icmp_sem]. rewrite (trunc_small w 0) by (apply inr0; lia). reflexivity.
Qed.
Lemma G_sf : forall g p vs rt w e r l Q, vals g p vs e (V (TInt w) (trunc w r)) -> 0 < w ->
  G (set1 g fSF (Some (sf_of w r))) p vs rt l Q -> G g p vs rt (SSetT SF IsNeg (TInt w) e e e :: l) Q.
Proof.
  intros g p vs rt w e r l Q E W K. apply G_setT. apply (G_flag g p vs rt fSF _ (sf_of w r)); [|discriminate|exact K].
  eapply v_eq; [eapply v_cmp; [exact E|apply v_cI]|]. cbn [icmp_sem]. rewrite (trunc_small w 0) by (apply inr0; lia).
  rewrite sgn_0, sf_neg by assumption. reflexivity.
Qed.
Lemma G_pfT : forall g p vs rt w e r l Q, vals g p vs e (V (TInt w) (trunc w r)) -> 8 <= w ->
  G (set1 g fPF (Some (pf_of r))) p vs rt l Q -> G g p vs rt (SSetT PF TruncI8 (TInt w) e e e :: l) Q.
Proof.
  intros g p vs rt w e r l Q E W K. apply G_setT. eapply G_pf; [|reflexivity|].
  - cbn [transform_exp]. eapply v_trunc; [exact E|lia|apply trunc_range; lia].
  - rewrite pf_trunc, pf_trunc by lia. exact K.
Qed.
Lemma G_sap : forall g p vs rt w e r l Q, sv vs e (V (TInt w) (trunc w r)) -> 8 <= w ->
  G (set1 (set1 (set1 g fSF (Some (sf_of w r))) fPF (Some (pf_of r))) fAF None) p vs rt l Q ->
  G g p vs rt (FlagCalcSAPLogic w e ++ l) Q.
Proof.
  intros g p vs rt w e r l Q E W K. unfold FlagCalcSAPLogic, SetFlagUndef. cbn [app map].
  apply G_sf with r; [apply sv_vals; exact E|lia|]. apply G_pfT with r; [apply sv_vals; exact E|lia|].
  change AF with (cell fAF). apply G_undef1. exact K.
Qed.
Ltac gle_flags := repeat split; auto; let f := fresh in let b := fresh in intros f b; destruct f; cbn; auto.
Lemma G_add : forall g p vs rt w res lhs rhs a b skip l Q,
  sv vs res (V (TInt w) (trunc w (a + b))) -> sv vs lhs (V (TInt w) a) -> sv vs rhs (V (TInt w) b) ->
  8 <= w -> inr w a -> inr w b -> G (add_flags w a b 0 skip g) p vs rt l Q ->
  G g p vs rt (FlagCalcAdd cfg w res lhs rhs skip ++ l) Q.
Proof.
  intros g p vs rt w res lhs rhs a b skip l Q R A B W IA IB K. unfold FlagCalcAdd. rewrite <- !app_assoc. cbn [app].
  apply (G_zf g p vs rt w res (a + b)); [apply sv_vals; exact R|lia|].
  apply G_sf with (a + b); [apply sv_vals; exact R|lia|]. apply G_pfT with (a + b); [apply sv_vals; exact R|lia|].
  apply G_setT. apply (G_flag _ p vs rt fAF _ (16 <=? a mod 16 + b mod 16)).
  { cbn [transform_exp]. eapply v_eq.
    - eapply v_cmp; [|apply v_cI]. eapply v_bin; [|apply v_cI|reflexivity]. eapply v_bin; [|apply sv_vals; exact R|reflexivity].
      eapply v_bin; [apply sv_vals; exact A|apply sv_vals; exact B|reflexivity].
    - cbn [icmp_sem]. rewrite (trunc_small w 0) by (apply inr0; lia). rewrite (trunc_small w 16).
      + rewrite aux_add by assumption. reflexivity.
      + apply (inr_le 8); [lia|unfold inr; lia]. }
  { discriminate. }
  assert (OV : forall g', G (set1 g' fOF (Some (s_out w (S_ w a + S_ w b)))) p vs rt l Q ->
    G g' p vs rt ((if xl_ovf cfg then [SSet OF (E2 (OOv SAddOv) lhs rhs)] else [SSetT OF AddOverflowFlag (TInt w) res lhs rhs]) ++ l) Q).
  { intros g' K'. rewrite !S_small in K' by assumption. destruct (xl_ovf cfg); cbn [app].
    - apply (G_flag _ p vs rt fOF _ (s_out w (sgn w a + sgn w b))); [|discriminate|exact K'].
      eapply v_eq; [eapply v_ov; apply sv_vals; eassumption|reflexivity].
    - apply G_setT. apply (G_flag _ p vs rt fOF _ (s_out w (sgn w a + sgn w b))); [|discriminate|exact K'].
      cbn [transform_exp]. eapply v_eq.
      + eapply v_cmp; [|apply v_cI]. eapply v_bin; [| |reflexivity].
        * eapply v_bin; [|apply v_cI|reflexivity]. eapply v_bin; [apply sv_vals; exact A|apply sv_vals; exact B|reflexivity].
        * eapply v_bin; [apply sv_vals; exact R|apply sv_vals; exact A|reflexivity].
      + cbn [icmp_sem]. rewrite (trunc_small w 0) by (apply inr0; lia). rewrite sgn_0 by lia. rewrite ovf_add by (assumption || lia). reflexivity. }
  destruct skip; cbn [app].
  - apply OV. eapply G_weaken; [|exact K]. unfold add_flags. rewrite !Z.add_0_r. gle_flags.
  - apply G_setT. apply (G_flag _ p vs rt fCF _ (2^w <=? a + b)).
    { cbn [transform_exp]. eapply v_eq; [eapply v_cmp; [apply sv_vals; exact R|apply sv_vals; exact A]|]. cbn [icmp_sem]. rewrite carry_add by (assumption || lia). reflexivity. }
    { discriminate. }
    apply OV. eapply G_weaken; [|exact K]. unfold add_flags. rewrite !Z.add_0_r. gle_flags.
Qed.
Lemma G_sub : forall g p vs rt w res lhs rhs a b skip alt l Q,
  sv vs res (V (TInt w) (trunc w (a - b))) -> sv vs lhs (V (TInt w) a) -> sv vs rhs (V (TInt w) b) ->
  8 <= w -> inr w a -> inr w b ->
  G (sub_flags w a b 0 skip g) p (upd_var vs 21 (V (TInt 1) (b2z (sf_of w (a - b))))) rt l Q ->
  G g p vs rt (FlagCalcSub w res lhs rhs skip alt ++ l) Q.
Proof.
  intros g p vs rt w res lhs rhs a b skip alt l Q R A B W IA IB K. unfold FlagCalcSub. rewrite <- !app_assoc. cbn [app].
  apply G_let with (V (TInt 1) (b2z (sf_of w (a - b)))).
  { eapply v_eq; [eapply v_cmp; [apply sv_vals; exact R|apply v_cI]|]. cbn [icmp_sem]. rewrite (trunc_small w 0) by (apply inr0; lia).
    rewrite sgn_0, sf_neg by lia. reflexivity. }
  set (vs' := upd_var vs 21 (V (TInt 1) (b2z (sf_of w (a - b))))) in *.
  assert (R' : sv vs' res (V (TInt w) (trunc w (a - b)))) by (apply sv_upd; exact R).
  assert (A' : sv vs' lhs (V (TInt w) a)) by (apply sv_upd; exact A).
  assert (B' : sv vs' rhs (V (TInt w) b)) by (apply sv_upd; exact B). clear R A B.
  assert (ZF_ : forall l, G (set1 g fZF (Some (zf_of w (a - b)))) p vs' rt l Q ->
     G g p vs' rt ((if alt then SSet ZF (eCmp EQ lhs rhs) else SSetT ZF IsZero (TInt w) res res res) :: l) Q).
  { intros l0 K0. destruct alt.
    - apply (G_flag _ p vs' rt fZF _ (zf_of w (a - b))); [|discriminate|exact K0].
      eapply v_eq; [eapply v_cmp; apply sv_vals; eassumption|]. cbn [icmp_sem]. f_equal. unfold zf_of. change U with trunc.
      rewrite trunc_sub_cases by (assumption || lia). unfold inr in *. destruct (Z.ltb_spec a b); lia.
    - apply (G_zf g p vs' rt w res (a - b)); [apply sv_vals; assumption|lia|exact K0]. }
  apply ZF_. clear ZF_. apply (G_flag _ p vs' rt fSF _ (sf_of w (a - b))); [apply v_var; reflexivity|discriminate|].
  apply G_pfT with (a - b); [apply sv_vals; assumption|lia|].
  apply G_setT. apply (G_flag _ p vs' rt fAF _ (a mod 16 <? b mod 16)).
  { cbn [transform_exp]. eapply v_eq.
    - eapply v_cmp; [|apply v_cI]. eapply v_bin; [|apply v_cI|reflexivity]. eapply v_bin; [|apply sv_vals; exact R'|reflexivity].
      eapply v_bin; [apply sv_vals; exact A'|apply sv_vals; exact B'|reflexivity].
    - cbn [icmp_sem]. rewrite (trunc_small w 0) by (apply inr0; lia). rewrite (trunc_small w 16).
      + rewrite aux_sub by assumption. reflexivity.
      + apply (inr_le 8); [lia|unfold inr; lia]. }
  { discriminate. }
  assert (OV : forall g', G (set1 g' fOF (Some (s_out w (S_ w a - S_ w b)))) p vs' rt l Q ->
    G g' p vs' rt (SSet OF (eCmp NE (vX 21) (eCmp SLT lhs rhs)) :: l) Q).
  { intros g' K'. rewrite !S_small in K' by assumption.
    apply (G_flag _ p vs' rt fOF _ (s_out w (sgn w a - sgn w b))); [|discriminate|exact K'].
    eapply v_eq; [eapply v_cmp; [apply v_var; reflexivity|eapply v_cmp; apply sv_vals; eassumption]|].
    cbn [icmp_sem]. rewrite <- ovf_sub by (assumption || lia). rewrite sf_neg by lia. reflexivity. }
  destruct skip; cbn [app].
  - apply OV. eapply G_weaken; [|exact K]. unfold sub_flags. rewrite !Z.sub_0_r, !Z.add_0_r. gle_flags.
  - apply G_setT. apply (G_flag _ p vs' rt fCF _ (a <? b)).
    { cbn [transform_exp]. eapply v_eq; [eapply v_cmp; apply sv_vals; eassumption|reflexivity]. }
    { discriminate. }
    apply OV. eapply G_weaken; [|exact K]. unfold sub_flags. rewrite !Z.sub_0_r, !Z.add_0_r. gle_flags.
Qed.
End Sim.
