(** The code a function is lowered to does what the builder statements do. *)

From Coq Require Import ZArith Lia ZifyBool List Bool Arith Cantor.
From Verif Require Import CfgFinish Prop_Cfg Bits IR IrMono IrWf Facet Dsl RegFile RegFileOk RegScript Layout Cfg CfgHeap CfgLog CfgBuild CfgSem Decode LiftFn LiftSim Lower LowerOk.
Import ListNotations.
Open Scope Z_scope.

Lemma option_eq_dec : forall (x : option nat) n, x = Some n \/ x <> Some n.
Proof. intros [x|] n; [|right; discriminate]. destruct (Nat.eq_dec x n) as [->|N]; [left; reflexivity|right; congruence]. Qed.
Lemma nodup_key : forall (T : Type) (l : list (Z * T)) a x y, NoDup (map fst l) -> In (a, x) l -> In (a, y) l -> x = y.
Proof.
  induction l as [|[a' z] l IH]; intros a x y N I1 I2; [destruct I1|]. cbn [map fst] in N. inversion N as [|? ? NI N' EQ]; subst.
  destruct I1 as [Q1|I1], I2 as [Q2|I2]; [congruence| | |eapply IH; eassumption].
  - injection Q1 as -> ->. destruct NI. change a with (fst (a, y)). apply in_map. exact I2.
  - injection Q2 as -> ->. destruct NI. change a with (fst (a, x)). apply in_map. exact I1.
Qed.

Lemma sys_unmapped : forall A r, sysb A r = true -> ~ mapped A r.
Proof.
  intros A r SB. assert (X : r = GP 257 /\ A = X86_64 \/ r = GP 256 /\ (A = X86_64 \/ A = AArch64)).
  { destruct A; cbn [sysb] in SB; try discriminate SB; [apply orb_prop in SB; destruct SB as [SB|SB]|]; apply areg_eqb_eq in SB; auto. }
  destruct X as [[-> ->]|[-> [->| ->]]]; intro MR; unfold mapped in MR; vm_compute in MR; repeat (destruct MR as [MR|MR]; [discriminate MR|]); destruct MR.
Qed.

Section Sem.
Context `{FpuOps}.
Variable c : cenv.
Notation A := (c_arch c).
Variable Ins : Type.
Variable ds : dst Ins.
Variable a0 : Z.
Variable cfold : nat -> exp atom -> option bool.
Variable gcache : nat -> bool.
Notation low := (low c gcache).
Notation lstm := (lstm c gcache).
Notation lstms := (lstms c gcache).
Notation lsegs := (lsegs c Ins ds a0 cfold gcache).
Notation posn := (posn c).
Notation wf := (wf c).

(** ** Straight-line code *)
Section Seg.
Variable M : em.
Variable e : env.
Variable S : slots.
Variable R : regs.
Variable k : nat.
Variable p : rv.
Variable r : res bytes.
Hypothesis EO : env_ok A e.
Hypothesis VAL : forall l2 g rg fc v l1, f_log (m_f M) = l2 ++ (OGet g k rg fc, Some v) :: l1 ->
  ole (facet_of fc (seg_regs A e S R k l1 rg)) (pv e v).
Hypothesis SYS : sys_ok c k e S.

Ltac lia := try clear VAL; try clear EO; try clear SYS; Lia.lia.

(** What is still to be executed when [m] has been emitted. *)
Definition AT (m : em) (mem : bytes) : Prop := exists rest, code_of M k = rev (m_code m k) ++ rest /\ iseq e p mem rest r.
Lemma AT_emit : forall m mem d i xs mem', AT m mem -> ext (emit m k d i) M -> istep e p mem i = Ok (xs, mem') ->
  (forall a x, In (a, x) xs -> e a = x) /\ AT (emit m k d i) mem'.
Proof.
  intros m mem d i xs mem' (rest & EC & IS) EX ST. destruct (ex_code _ _ EX k) as (l2 & EM & _). cbn [emit m_code] in EM. rewrite updn_eq in EM.
  unfold code_of in EC. rewrite EM, rev_app_distr in EC. cbn [rev] in EC. rewrite <- app_assoc in EC. cbn [app] in EC.
  apply app_inv_head in EC. subst rest.
  assert (X : (forall a x, In (a, x) xs -> e a = x) /\ iseq e p mem' (rev l2) r).
  { inversion IS; subst; try congruence. match goal with Q : istep e p mem i = Ok (?ys, ?m2) |- _ => rewrite ST in Q; injection Q as <- <- end. auto. }
  destruct X as [X1 X2]. split; [exact X1|]. exists (rev l2). split; [|exact X2].
  unfold code_of. rewrite EM, rev_app_distr. cbn [emit m_code]. rewrite updn_eq. reflexivity.
Qed.
Lemma AT_same : forall m m' mem, m_code m' k = m_code m k -> AT m mem -> AT m' mem.
Proof. intros m m' mem E X. unfold AT. rewrite E. exact X. Qed.
Lemma AT_end : forall m mem, m_code M k = m_code m k -> AT m mem -> r = Ok mem.
Proof.
  intros m mem E (rest & EC & IS). unfold code_of in EC. rewrite E in EC. rewrite <- (app_nil_r (rev (m_code m k))) in EC at 1. apply app_inv_head in EC. subst rest.
  inversion IS. reflexivity.
Qed.

(** The value of an expression refines [w]. *)
Definition evs (w : rv) (x : exp atom) (t : ty) : Prop := exists w', vev e x = Ok w' /\ rle w w' /\ ty_of w' = t.
Definition pcr (q : spc) (v : pcreg) : Prop :=
  match q, v with
  | QVal x, PcVal w => evs w x (TInt 64)
  | QConst a, PcConst a' => a = a'
  | QCond x a1 a2, PcCond w b1 b2 => evs w x (TInt 1) /\ a1 = b1 /\ a2 = b2
  | QCheck x a, PcCheck w b => evs w x (TInt 64) /\ a = b
  | _, _ => False
  end.
Record SIM (q : loc) (m : em) (s : st) (mem : bytes) : Prop := {
  sm_posn : posn q m;
  sm_k : x_k q = k;
  sm_reg : forall rg, mapped A rg -> ole (s_reg s rg) (seg_regs A e S R k (f_log (m_f m)) rg);
  sm_rng : forall rg z, mapped A rg -> s_reg s rg = Some z -> inr (native_size A rg) z;
  sm_var : forall x v, x_var q x = Some v -> exists w, s_var s x = Some w /\ evs w (v_e v) (v_ty v);
  sm_pc : forall v, x_pc q = Some v -> pcr v (s_pc s);
  sm_mem : s_mem s = mem;
  sm_sys : forall rg, sysb A rg = true -> ole (s_reg s rg) (rbits (S rg));
}.
Lemma rcell_skip : forall l2 l rg s x, (forall ox, In ox l2 -> cstep A e k rg s (rcell A e k rg s x l) (fst ox) = rcell A e k rg s x l) ->
  rcell A e k rg s x (l2 ++ l) = rcell A e k rg s x l.
Proof.
  induction l2 as [|[o y] l2 IH]; intros l rg s x N; [reflexivity|]. cbn [app rcell]. rewrite IH by (intros ox I0; apply N; right; exact I0).
  exact (N (o, y) (or_introl eq_refl)).
Qed.
Lemma SIM_reads : forall q m m' s mem, SIM q m s mem -> reads c q m m' -> SIM q m' s mem.
Proof.
  intros q m m' s mem X RD. destruct X. split; try assumption; [apply RD|].
  intros rg MR. destruct (rd_log _ _ _ _ RD) as (l2 & EL & G). rewrite EL. unfold seg_regs. rewrite rcell_skip; [apply sm_reg0; assumption|].
  intros ox I0. destruct (G ox I0) as (g & r' & f & ->). reflexivity.
Qed.
Lemma addr_pc_base_trunc : forall a, trunc 64 (addr_pc_base c a) = addr_pc_base c a.
Proof. intros a. unfold addr_pc_base. destruct (c_pcbase c); apply trunc_trunc; clear; Lia.lia. Qed.
Lemma vev_base : forall a, vev e (EConst (TInt 64) (addr_pc_base c a)) = Ok (V (TInt 64) (addr_pc_base c a)).
Proof. intros a. unfold vev. cbn [eval tsize]. rewrite addr_pc_base_trunc. reflexivity. Qed.
Lemma pc_sim : forall q v off w, pcr q v -> pc_value c v off = Ok w -> evs w (pc_exp c q off) (TInt 64).
Proof.
  assert (OFF : forall x w0 off w, evs w0 x (TInt 64) -> (if off =? 0 then Ok w0 else bin_sem Add w0 (V (TInt 64) (trunc 64 off))) = Ok w ->
    evs w (if off =? 0 then x else E2 (OBin Add) x (EConst (TInt 64) off)) (TInt 64)).
  { intros x w0 off w (w' & E1 & RL & TY) E. destruct (off =? 0); [injection E as <-; exists w'; auto|].
    destruct (sem2_mono (OBin Add) _ _ _ _ _ RL (rle_refl (V (TInt 64) (trunc 64 off))) E) as (y & E2' & RY).
    exists y. split; [unfold vev in *; cbn [eval tsize]; rewrite E1; exact E2'|]. split; [exact RY|].
    eapply (sem2_ty (OBin Add)); [|exact E2']. rewrite TY. reflexivity. }
  intros q v off w P E. destruct q as [x|a|x a1 a2|x a], v as [w0|b|w0 b1 b2|w0 b]; try contradiction; cbn [pc_value pc_exp pcr] in *.
  - eapply OFF; eassumption.
  - subst b. injection E as <-. exists (V (TInt 64) (addr_pc_base c (a + off))). split; [apply vev_base|]. split; [apply rle_refl|reflexivity].
  - destruct P as ((w' & E1 & RL & TY) & <- & <-).
    destruct (sem3_mono OSel _ _ _ _ _ _ _ RL (rle_refl (V (TInt 64) (addr_pc_base c (a1 + off)))) (rle_refl (V (TInt 64) (addr_pc_base c (a2 + off)))) E) as (y & E2' & RY).
    exists y. split; [unfold vev in *; cbn [eval tsize]; rewrite E1, !addr_pc_base_trunc; exact E2'|]. split; [exact RY|].
    eapply (sem3_ty OSel); [|exact E2']. rewrite TY. reflexivity.
  - destruct P as [P <-]. eapply OFF; eassumption.
Qed.

Lemma low_sim : forall q s mem x m m' y t w, SIM q m s mem -> low q m x = Some (m', y, t) -> ext m' M -> ev c s x = Ok w -> evs w y t.
Proof.
  intros q s mem. induction x as [l|t0 z|t0|o a IHa|o a IHa b IHb|o a IHa b IHb d IHd|a IHa b IHb d IHd];
    intros m m' y t w X E EX EV; pose proof (sm_posn _ _ _ _ X) as P; unfold ev in *; cbn [Lower.low eval] in E, EV.
  - destruct l as [x|rg f|off]; cbn [leaf_val] in EV.
    + destruct (x_var q x) as [v|] eqn:XV; [|discriminate]. injection E as <- <- <-. destruct (sm_var _ _ _ _ X _ _ XV) as (w0 & SV & EW). rewrite SV in EV. injection EV as <-. assumption.
    + destruct (sysb A rg) eqn:SB.
      { destruct f; try discriminate E. injection E as <- <- <-. injection EV as <-. rewrite (sm_k _ _ _ _ X). exists (e (ASlot k rg (TInt 64))).
        split; [reflexivity|]. destruct (EO (ASlot k rg (TInt 64))) as [TY WF]. cbn [aty] in TY. split; [|exact TY].
        pose proof (sm_sys _ _ _ _ X rg SB) as OR. rewrite <- (SYS rg SB) in OR.
        destruct (s_reg s rg) as [z|]; cbn [get_facet]; [|right; rewrite TY; reflexivity].
        specialize (OR z eq_refl). destruct (e (ASlot k rg (TInt 64))) as [t' z'|]; [|discriminate OR]. cbn [rbits] in OR. injection OR as ->.
        cbn [ty_of] in TY. subst t'. left. cbn [wf_rv tsize] in WF. change (V (TInt 64) (trunc 64 z) = V (TInt 64) z). rewrite (trunc_small 64 z WF). reflexivity. }
      destruct (get c gcache q m rg f) as [[m1 v]|] eqn:G; [|discriminate]. injection E as <- <- <-. injection EV as <-.
      destruct (get_inv _ _ _ _ _ _ _ _ P G) as (_ & MR & TV & VT & g & LG).
      destruct (TV e EO) as (w' & VE & TY & WF). exists w'. split; [assumption|]. split; [|congruence].
      destruct (fe_log _ _ (ex_f _ _ EX)) as (l2 & EL & _). rewrite LG, (sm_k _ _ _ _ X) in EL.
      pose proof (VAL _ _ _ _ _ _ EL) as OV. pose proof (sm_reg _ _ _ _ X rg MR) as OR.
      destruct (s_reg s rg) as [z|] eqn:SR; cbn [get_facet]; [|right; congruence].
      specialize (OR z eq_refl). rewrite OR, facet_of_bits in OV. specialize (OV _ eq_refl). unfold pv in OV. rewrite VE in OV.
      destruct w' as [t' z'|]; [|discriminate]. injection OV as ->. cbn [ty_of] in TY. subst t'. left. rewrite VT. reflexivity.
    + destruct (x_pc q) as [qp|] eqn:XP; [|discriminate]. injection E as <- <- <-. eapply pc_sim; [eapply sm_pc; eassumption|assumption].
  - destruct (twf t0); [|discriminate]. injection E as <- <- <-. injection EV as <-. exists (V t0 (trunc (tsize t0) z)). split; [reflexivity|]. split; [apply rle_refl|reflexivity].
  - destruct (twf t0); [|discriminate]. injection E as <- <- <-. injection EV as <-. exists (Poison t0). split; [reflexivity|]. split; [apply rle_refl|reflexivity].
  - destruct (low q m a) as [[[m1 a'] s1]|] eqn:L1; [|discriminate]. destruct (chk_ty (ty1 o s1)) as [t1|] eqn:T; [|discriminate]. apply chk_inv in T. destruct T as [T _]. injection E as <- <- <-.
    destruct (eval (leaf_val c s) a) as [wa| |] eqn:EA; try discriminate. cbn [bind] in EV.
    destruct (IHa _ _ _ _ _ X L1 EX eq_refl) as (wa' & VA & RA & TA). destruct (sem1_mono _ _ _ _ RA EV) as (y & SY & RY).
    rewrite <- TA in T. destruct (sem1_ty _ _ _ T) as (y' & SY' & TY). exists y. split; [unfold vev in *; cbn [eval]; rewrite VA; exact SY|]. split; [assumption|congruence].
  - destruct (low q m a) as [[[m1 a'] s1]|] eqn:L1; [|discriminate]. pose proof (low_reads _ _ _ _ _ _ _ _ P L1) as R1.
    destruct (low q m1 b) as [[[m2 b'] s2]|] eqn:L2; [|discriminate]. pose proof (low_reads _ _ _ _ _ _ _ _ (rd_posn _ _ _ _ R1) L2) as R2.
    destruct (chk_ty (ty2 o s1 s2)) as [t1|] eqn:T; [|discriminate]. apply chk_inv in T. destruct T as [T _]. injection E as <- <- <-.
    destruct (eval (leaf_val c s) a) as [wa| |] eqn:EA; try discriminate. cbn [bind] in EV.
    destruct (eval (leaf_val c s) b) as [wb| |] eqn:EB; try discriminate. cbn [bind] in EV.
    destruct (IHa _ _ _ _ _ X L1 (ext_trans _ _ _ (rd_ext _ _ _ _ R2) EX) eq_refl) as (wa' & VA & RA & TA).
    destruct (IHb _ _ _ _ _ (SIM_reads _ _ _ _ _ X R1) L2 EX eq_refl) as (wb' & VB & RB & TB).
    destruct (sem2_mono _ _ _ _ _ _ RA RB EV) as (y & SY & RY). exists y.
    split; [unfold vev in *; cbn [eval]; rewrite VA; cbn [bind]; rewrite VB; exact SY|]. split; [assumption|]. eapply sem2_ty; [rewrite TA, TB; exact T|exact SY].
  - destruct (low q m a) as [[[m1 a'] s1]|] eqn:L1; [|discriminate]. pose proof (low_reads _ _ _ _ _ _ _ _ P L1) as R1.
    destruct (low q m1 b) as [[[m2 b'] s2]|] eqn:L2; [|discriminate]. pose proof (low_reads _ _ _ _ _ _ _ _ (rd_posn _ _ _ _ R1) L2) as R2.
    destruct (low q m2 d) as [[[m3 d'] s3]|] eqn:L3; [|discriminate]. pose proof (low_reads _ _ _ _ _ _ _ _ (rd_posn _ _ _ _ R2) L3) as R3.
    destruct (chk_ty (ty3 o s1 s2 s3)) as [t1|] eqn:T; [|discriminate]. apply chk_inv in T. destruct T as [T _]. injection E as <- <- <-.
    destruct (eval (leaf_val c s) a) as [wa| |] eqn:EA; try discriminate. cbn [bind] in EV.
    destruct (eval (leaf_val c s) b) as [wb| |] eqn:EB; try discriminate. cbn [bind] in EV.
    destruct (eval (leaf_val c s) d) as [wd| |] eqn:ED; try discriminate. cbn [bind] in EV.
    pose proof (ext_trans _ _ _ (rd_ext _ _ _ _ R3) EX) as EX2.
    destruct (IHa _ _ _ _ _ X L1 (ext_trans _ _ _ (rd_ext _ _ _ _ R2) EX2) eq_refl) as (wa' & VA & RA & TA).
    destruct (IHb _ _ _ _ _ (SIM_reads _ _ _ _ _ X R1) L2 EX2 eq_refl) as (wb' & VB & RB & TB).
    destruct (IHd _ _ _ _ _ (SIM_reads _ _ _ _ _ X (reads_trans _ _ _ _ _ R1 R2)) L3 EX eq_refl) as (wd' & VD & RD & TD).
    destruct (sem3_mono _ _ _ _ _ _ _ _ RA RB RD EV) as (y & SY & RY). exists y.
    split; [unfold vev in *; cbn [eval]; rewrite VA; cbn [bind]; rewrite VB; cbn [bind]; rewrite VD; exact SY|]. split; [assumption|]. eapply sem3_ty; [rewrite TA, TB, TD; exact T|exact SY].
  - destruct (low q m a) as [[[m1 a'] s1]|] eqn:L1; [|discriminate]. pose proof (low_reads _ _ _ _ _ _ _ _ P L1) as R1.
    destruct (low q m1 b) as [[[m2 b'] s2]|] eqn:L2; [|discriminate]. pose proof (low_reads _ _ _ _ _ _ _ _ (rd_posn _ _ _ _ R1) L2) as R2.
    destruct (low q m2 d) as [[[m3 d'] s3]|] eqn:L3; [|discriminate]. pose proof (low_reads _ _ _ _ _ _ _ _ (rd_posn _ _ _ _ R2) L3) as R3.
    destruct (ty_eqb s1 (TInt 1) && ty_eqb s2 s3) eqn:T; [|discriminate]. injection E as <- <- <-.
    apply andb_prop in T. destruct T as [T1 T2]. apply ty_eqb_eq in T1, T2. subst s1 s3.
    destruct (eval (leaf_val c s) a) as [wa| |] eqn:EA; try discriminate. cbn [bind] in EV.
    pose proof (ext_trans _ _ _ (rd_ext _ _ _ _ R3) EX) as EX2.
    destruct (IHa _ _ _ _ _ X L1 (ext_trans _ _ _ (rd_ext _ _ _ _ R2) EX2) eq_refl) as (wa' & VA & RA & TA).
    destruct wa as [ta za|ta]; [apply rle_V in RA; subst wa'; cbn [ty_of] in TA; subst ta|].
    + destruct (za =? 0) eqn:ZA.
      * destruct (IHd _ _ _ _ _ (SIM_reads _ _ _ _ _ X (reads_trans _ _ _ _ _ R1 R2)) L3 EX EV) as (wd' & VD & RD & TD).
        exists wd'. split; [|auto]. unfold vev in *. cbn [eval]. rewrite VA. cbn [bind]. rewrite ZA. exact VD.
      * destruct (IHb _ _ _ _ _ (SIM_reads _ _ _ _ _ X R1) L2 EX2 EV) as (wb' & VB & RB & TB).
        exists wb'. split; [|auto]. unfold vev in *. cbn [eval]. rewrite VA. cbn [bind]. rewrite ZA. exact VB.
    + apply rle_ty in RA. cbn [ty_of] in RA. rewrite TA in RA. subst ta. discriminate.
Qed.
(** [low_sim], with what the code may be assumed to do next. *)
Lemma lowt_sim : forall q s mem x m m' y t w, SIM q m s mem -> lowt c gcache q m x t = Some (m', y) -> ext m' M -> ev c s x = Ok w -> evs w y t.
Proof. intros q s mem x m m' y t w X E EX EV. destruct (lowt_reads _ _ _ _ _ _ _ _ (sm_posn _ _ _ _ X) E) as [_ L]. eapply low_sim; eassumption. Qed.

(** Naming a value. *)
Lemma var_tyok : forall n t, tyok A (vvar n t).
Proof. intros n t e' E. exists (e' (AVar n t)). split; [reflexivity|]. destruct (E (AVar n t)). auto. Qed.
Lemma def_sim : forall q s mem x m m' v w, SIM q m s mem -> AT m mem -> def c gcache q m x = Some (m', v) -> ext m' M -> ev c s x = Ok w ->
  SIM q m' s mem /\ AT m' mem /\ evs w (v_e v) (v_ty v) /\ tyok A v.
Proof.
  intros q s mem x m m' v w X AM E EX EV. destruct (def_inv _ _ _ _ _ _ _ (sm_posn _ _ _ _ X) E) as (m1 & y & t & L1 & R1 & -> & -> & P1 & E1).
  destruct (low_sim _ _ _ _ _ _ _ _ _ X L1 (ext_trans _ _ _ E1 EX) EV) as (w' & VE & RL & TY).
  rewrite (sm_k _ _ _ _ X) in *. destruct (AT_emit m1 mem 1 (IDef (num m1 k 0) t y) [(AVar (num m1 k 0) t, w')] mem) as [EA AM'].
  - apply (AT_same m); [|assumption]. rewrite (rd_m _ _ _ _ R1). reflexivity.
  - exact EX.
  - cbn [istep]. rewrite VE. reflexivity.
  - split; [|split; [exact AM'|split; [|apply var_tyok]]].
    + destruct (SIM_reads _ _ _ _ _ X R1). split; assumption.
    + exists w'. cbn [vvar v_e v_ty]. split; [|auto]. unfold vev. cbn [eval]. rewrite (EA (AVar (num m1 k 0) t) w' (or_introl eq_refl)). reflexivity.
Qed.
Lemma deft_sim : forall q s mem x t m m' v w, SIM q m s mem -> AT m mem -> deft c gcache q m x t = Some (m', v) -> ext m' M -> ev c s x = Ok w ->
  SIM q m' s mem /\ AT m' mem /\ evs w (v_e v) t /\ tyok A v /\ v_ty v = t.
Proof.
  intros q s mem x t m m' v w X AM E EX EV. destruct (deft_inv _ _ _ _ _ _ _ _ (sm_posn _ _ _ _ X) E) as [E' TV].
  destruct (def_sim _ _ _ _ _ _ _ _ X AM E' EX EV) as (X1 & X2 & X3 & X4). rewrite TV in X3. auto.
Qed.

(** ** Writing a register *)
Lemma wr_sim : forall q s mem m w m' q' rg x, SIM q m s mem -> AT m mem -> wr c q m w = Some (m', q') ->
  wreg w = rg -> (forall g r f, w <> WGet g r f) ->
  (mapped A rg -> wtyped A w -> inr (native_size A rg) (match x with Some z => z | None => 0 end) /\
    ole x (cstep A e k rg (rbits (S rg)) (seg_regs A e S R k (f_log (m_f m)) rg) (to_rop k w))) ->
  SIM q' m' (with_reg s (upd_reg (s_reg s) rg x)) mem /\ AT m' mem.
Proof.
  intros q s mem m w m' q' rg x X AM E WR NG OK. destruct (wr_ext _ _ _ _ _ _ (sm_posn _ _ _ _ X) E) as (-> & P1 & E1). unfold wr in E.
  destruct (Lower.cop1 c m (CReg (x_b q) w)) as [m1|] eqn:C1; [|discriminate]. injection E as <-.
  destruct (creg_inv _ _ _ _ _ (sm_posn _ _ _ _ X) C1) as (n & h & y & _ & MR & WT & LG & SS & MM & PN & EE). rewrite WR in MR.
  destruct (OK MR WT) as [RG OL]. rewrite (sm_k _ _ _ _ X) in LG. split.
  - split; try apply X; try assumption; cbn [with_reg s_reg].
    + intros rg' MR'. rewrite LG. unfold seg_regs. cbn [rcell]. unfold upd_reg. destruct (areg_eqb rg rg') eqn:Q.
      * apply areg_eqb_eq in Q. subst rg'. exact OL.
      * rewrite cstep_other; [apply (sm_reg _ _ _ _ X); assumption|]. right. intro Q'. rewrite <- Q' in Q.
        replace (rop_reg (to_rop k w)) with (wreg w) in Q by (destruct w; reflexivity). rewrite WR, areg_eqb_refl in Q. discriminate.
    + intros rg' z MR' Q'. unfold upd_reg in Q'. destruct (areg_eqb rg rg') eqn:Q; [|eapply (sm_rng _ _ _ _ X); eassumption].
      apply areg_eqb_eq in Q. subst rg' x. exact RG.
    + intros rg' SB. unfold upd_reg. destruct (areg_eqb rg rg') eqn:Q; [|apply (sm_sys _ _ _ _ X); exact SB].
      apply areg_eqb_eq in Q. subst rg'. destruct (sys_unmapped _ _ SB MR).
  - apply (AT_same m); [|assumption]. rewrite MM. reflexivity.
Qed.
Lemma cstep_hit : forall rg s x w, wreg w = rg -> cstep A e k rg s x (to_rop k w) =
  match w with
  | WSet _ v => pv e v
  | WMerge _ v => insert_low (native_size A rg) (opw v) x (pv e v)
  | WLazy _ tr v1 v2 v3 => eager e tr (opw v1) v1 v2 v3
  | WGet _ _ _ => x
  end.
Proof. intros rg s x w <-. destruct w; cbn [to_rop cstep wreg]; rewrite ?Nat.eqb_refl, ?areg_eqb_refl; reflexivity. Qed.
Lemma okty_pos : forall n t, okty n t -> 0 <= tsize t <= n.
Proof. intros n t O. pose proof (okty_okw _ _ O) as W. destruct O as [_ L]. unfold okw in W. lia. Qed.
Lemma inr_le : forall a b z, 0 <= a <= b -> inr a z -> inr b z.
Proof. intros a b z L [I1 I2]. split; [assumption|]. apply (Z.lt_le_trans _ (2^a)); [assumption|]. apply Z.pow_le_mono_r; lia. Qed.
Lemma inr0 : forall n, 0 <= n -> inr n 0.
Proof. intros n L. split; [lia|]. apply Z.pow_pos_nonneg; lia. Qed.
Lemma nsize0 : forall rg, 0 <= native_size A rg.
Proof. intros rg. pose proof (native_size_pos A rg). lia. Qed.

Lemma set_sim : forall q s mem m v m' q' rg w, SIM q m s mem -> AT m mem -> wr c q m (WSet rg v) = Some (m', q') -> evs w (v_e v) (v_ty v) -> tyok A v ->
  SIM q' m' (with_reg s (upd_reg (s_reg s) rg (set_cell (native_size A rg) w))) mem /\ AT m' mem.
Proof.
  intros q s mem m v m' q' rg w X AM E (w' & VE & RL & TY) TV. eapply wr_sim; try eassumption; [reflexivity|discriminate|].
  intros MR [_ OT]. apply okty_pos in OT. cbn [nz kd] in OT. rewrite cstep_hit by reflexivity. unfold set_cell. destruct w as [t z|t].
  - split; [apply trunc_range; apply nsize0|]. apply rle_V in RL. subst w'. intros z' Q. injection Q as <-. unfold pv. rewrite VE.
    destruct (TV e EO) as (x & VX & _ & WF). rewrite VE in VX. injection VX as <-. cbn [wf_rv ty_of] in *. rewrite TY in WF.
    rewrite trunc_small; [reflexivity|]. eapply inr_le; [|exact WF]. exact OT.
  - split; [apply inr0, nsize0|]. intros z' Q. discriminate.
Qed.
Lemma merge_sim : forall q s mem m v m' q' rg w, SIM q m s mem -> AT m mem -> wr c q m (WMerge rg v) = Some (m', q') -> evs w (v_e v) (v_ty v) -> tyok A v ->
  SIM q' m' (with_reg s (upd_reg (s_reg s) rg (merge_cell (native_size A rg) (s_reg s rg) w))) mem /\ AT m' mem.
Proof.
  intros q s mem m v m' q' rg w X AM E (w' & VE & RL & TY) TV. eapply wr_sim; try eassumption; [reflexivity|discriminate|].
  intros MR [_ OT]. pose proof (okty_pos _ _ OT) as OP. cbn [nz kd] in OP. rewrite cstep_hit by reflexivity. pose proof (nsize0 rg) as NS.
  destruct w as [t z|t].
  - apply rle_V in RL. subst w'.
    pose proof (merge_bits_cell A rg (s_reg s rg) v e EO TV OT (fun z Q => sm_rng _ _ _ _ X rg z MR Q) _ VE) as MB. cbn [nz kd] in MB. rewrite MB.
    unfold opw. rewrite <- insert_low_bits by lia. destruct (TV e EO) as (x & VX & _ & WF). rewrite VE in VX. injection VX as <-. cbn [wf_rv ty_of] in *. rewrite TY in WF.
    assert (PV : pv e v = Some z) by (unfold pv; rewrite VE; reflexivity). rewrite PV. set (w := tsize (v_ty v)) in *. split.
    + unfold insert_low. destruct (Z.leb_spec (native_size A rg) w); [eapply inr_le; [|exact WF]; lia|].
      destruct (s_reg s rg) as [o|] eqn:SR; [|apply inr0; assumption]. pose proof (sm_rng _ _ _ _ X rg o MR SR) as [I1 I2]. destruct WF as [I3 I4].
      assert (PW : 0 < 2^w) by (apply Z.pow_pos_nonneg; lia).
      assert (SP : 2^native_size A rg = 2^(native_size A rg - w) * 2^w) by (rewrite <- Z.pow_add_r by lia; f_equal; lia).
      assert (DV : o / 2^w < 2^(native_size A rg - w)) by (apply Z.div_lt_upper_bound; lia).
      pose proof (Z.div_pos o (2^w) I1 PW). split; [nia|]. rewrite SP. nia.
    + intros z' Q. pose proof (sm_reg _ _ _ _ X rg MR) as OR. unfold insert_low in *. destruct (native_size A rg <=? w); [exact Q|].
      destruct (s_reg s rg) as [o|]; [|discriminate]. rewrite (OR o eq_refl). exact Q.
  - cbn [merge_cell]. split; [apply inr0; assumption|]. intros z' Q. discriminate.
Qed.

(** ** Flags *)
Definition rel (s : st) (a : dexp) (a' : exp atom) : Prop := forall w, ev c s a = Ok w -> exists w', vev e a' = Ok w' /\ rle w w'.
Lemma rel_const : forall s t z, rel s (EConst t z) (EConst t z).
Proof. intros s t z w E. exists w. split; [exact E|apply rle_refl]. Qed.
Lemma rel_E2 : forall s o a b a' b', rel s a a' -> rel s b b' -> rel s (E2 o a b) (E2 o a' b').
Proof.
  intros s o a b a' b' X Y w E. unfold ev in E. cbn [eval] in E. destruct (eval (leaf_val c s) a) as [wa| |] eqn:EA; try discriminate. cbn [bind] in E.
  destruct (eval (leaf_val c s) b) as [wb| |] eqn:EB; try discriminate. cbn [bind] in E.
  destruct (X wa EA) as (wa' & VA & RA). destruct (Y wb EB) as (wb' & VB & RB). destruct (sem2_mono _ _ _ _ _ _ RA RB E) as (y & SY & RY).
  exists y. split; [|exact RY]. unfold vev in *. cbn [eval]. rewrite VA. cbn [bind]. rewrite VB. exact SY.
Qed.
Lemma rel_evs : forall s a a' t w, ev c s a = Ok w -> evs w a' t -> rel s a a'.
Proof. intros s a a' t w E (w' & VE & RL & _) w0 E0. rewrite E in E0. injection E0 as <-. exists w'. auto. Qed.
(** The operands a transformation uses. *)
Definition uses2 (tr : transform) : bool := match tr with IsULT | AddOverflowFlag | X86AuxFlag => true | _ => false end.
Definition uses3 (tr : transform) : bool := match tr with AddOverflowFlag | X86AuxFlag => true | _ => false end.
Lemma transform_uses : forall s tr t v1 v2 v3 w, ev c s (transform_exp tr t v1 v2 v3) = Ok w ->
  (exists w1, ev c s v1 = Ok w1) /\ (uses2 tr = true -> exists w2, ev c s v2 = Ok w2) /\ (uses3 tr = true -> exists w3, ev c s v3 = Ok w3).
Proof.
  intros s tr t v1 v2 v3 w E. unfold ev in *. destruct tr; cbn [transform_exp] in E; unfold eCmp, eAnd, eXor, eBin, eTrunc, eCast in E; cbn [eval] in E;
    destruct (eval (leaf_val c s) v1) as [w1| |]; try discriminate; cbn [bind] in E;
    try (destruct (eval (leaf_val c s) v2) as [w2| |]; try discriminate; cbn [bind] in E);
    try (destruct (eval (leaf_val c s) v3) as [w3| |]; try discriminate; cbn [bind] in E);
    (split; [eauto|split; intros; try discriminate; eauto]).
  all: exfalso; repeat (match type of E with context [sem2 ?o ?a ?b] => destruct (sem2 o a b) end; cbn [bind] in E); discriminate.
Qed.
Lemma flag_sim : forall q s mem m tr t a1 a2 a3 v1 v2 v3 m' q' rg w, SIM q m s mem -> AT m mem -> wr c q m (WLazy rg tr v1 v2 v3) = Some (m', q') ->
  v_ty v1 = t -> ev c s (transform_exp tr t a1 a2 a3) = Ok w -> rel s a1 (v_e v1) -> (uses2 tr = true -> rel s a2 (v_e v2)) -> (uses3 tr = true -> rel s a3 (v_e v3)) ->
  SIM q' m' (with_reg s (upd_reg (s_reg s) rg (set_cell (native_size A rg) w))) mem /\ AT m' mem.
Proof.
  intros q s mem m tr t a1 a2 a3 v1 v2 v3 m' q' rg w X AM E T1 EV R1 R2 R3. eapply wr_sim; try eassumption; [reflexivity|discriminate|].
  intros MR [OT FO]. pose proof (okty_pos _ _ OT) as OP. cbn [nz kd tsize] in OP. rewrite cstep_hit by reflexivity. pose proof (nsize0 rg) as NS. unfold eager.
  unfold set_cell. destruct w as [tw z|tw]; [|split; [apply inr0; assumption|intros ? Q; discriminate]].
  split; [apply trunc_range; assumption|]. intros z' Q. injection Q as <-.
  destruct (lazy_flag A tr _ v1 v2 v3 FO) as (v & LV & TV & VT & PV). rewrite <- (PV e EO).
  assert (RT : vev e (v_e v) = Ok (V tw z) \/ exists z1, tr = TruncI8 /\ pv e v1 = Some z1 /\ z = z1 mod 2^8).
  { assert (FIN : forall y, v_e v = y -> rel s (transform_exp tr t a1 a2 a3) y -> vev e (v_e v) = Ok (V tw z)).
    { intros y -> RR. destruct (RR _ EV) as (w' & VW & RW). apply rle_V in RW. subst w'. exact VW. }
    unfold lazy_val in LV. destruct tr; cbn [canon_value] in LV; cbn [transform_exp] in *; try specialize (R2 eq_refl); try specialize (R3 eq_refl);
      try (left; injection LV as <-; eapply FIN; [reflexivity|]; cbn [v_e transform_exp]; rewrite ?T1;
           unfold eCmp, eAnd, eXor, eBin; repeat (apply rel_E2 || apply rel_const); auto; fail).
    right. unfold ev in *. unfold eTrunc, eCast in EV. cbn [eval] in EV. destruct (eval (leaf_val c s) a1) as [w1| |] eqn:EA; try discriminate. cbn [bind sem1] in EV.
    destruct (R1 _ EA) as (w1' & VW & RW). destruct FO as [[TV1 Y1] W8].
    destruct (TV1 e EO) as (x1 & VX & TX & W1). rewrite VW in VX. injection VX as <-.
    pose proof (rle_ty _ _ RW) as TW. rewrite TX, Y1 in TW.
    destruct w1 as [u z1|u]; cbn [ty_of] in TW; subst u; unfold cast_sem in EV; cbn [ty_of] in EV.
    - destruct (cast_fun CTrunc (TInt (opw v1)) (TInt 8)) as [g|] eqn:CF; [|discriminate]. injection EV as <- <-.
      apply rle_V in RW. subst w1'. exists z1. split; [reflexivity|]. split; [unfold pv; rewrite VW; reflexivity|].
      unfold cast_fun in CF. destruct (ty_eqb (TInt (opw v1)) (TInt 8)) eqn:Q8.
      + apply ty_eqb_eq in Q8. injection Q8 as Q8. injection CF as <-. cbn [wf_rv tsize] in W1. rewrite Q8 in W1. symmetry. apply Z.mod_small. exact W1.
      + unfold icast in CF. destruct (8 <=? opw v1); [|discriminate]. injection CF as <-. reflexivity.
    - destruct (cast_fun CTrunc (TInt (opw v1)) (TInt 8)); discriminate. }
  destruct RT as [VW|(z1 & -> & P1 & ->)].
  - unfold pv. rewrite VW. destruct (TV e EO) as (x & VX & TX & WF). rewrite VW in VX. injection VX as <-. cbn [wf_rv ty_of] in *. subst tw. rewrite VT in WF.
    rewrite trunc_small; [reflexivity|]. eapply inr_le; [|exact WF]. exact OP.
  - rewrite (PV e EO), P1. cbn [flag_val omap flag_bits]. f_equal. symmetry. apply trunc_small. eapply inr_le; [exact OP|]. cbn [flag_width]. apply Z.mod_pos_bound. reflexivity.
Qed.
(** ** Statements *)
Lemma SIM_var : forall q m s mem x v w, SIM q m s mem -> evs w (v_e v) (v_ty v) -> SIM (with_x q x v) m (with_var s (upd_var (s_var s) x w)) mem.
Proof.
  intros q m s mem x v w X EW. destruct X. split; try assumption; [eapply posn_q; [eassumption|reflexivity..]|].
  intros y v' Q. cbn [with_x x_var with_var s_var] in *. unfold upd_var. destruct (Nat.eqb x y); [injection Q as <-; eauto|auto].
Qed.
Lemma SIM_mem : forall q m s mem mem', SIM q m s mem -> SIM q m (with_mem s mem') mem'.
Proof. intros q m s mem mem' X. destruct X. split; try assumption; reflexivity. Qed.
Lemma SIM_pc : forall q m s mem x v, SIM q m s mem -> pcr x v -> SIM (with_q q x) m (with_pc s v) mem.
Proof.
  intros q m s mem x v X PR. destruct X. split; try assumption; [eapply posn_q; [eassumption|reflexivity..]|].
  intros y Q. cbn [with_q x_pc] in Q. injection Q as <-. exact PR.
Qed.
Lemma SIM_emit : forall q m s mem d i, SIM q m s mem -> SIM q (emit m k d i) s mem.
Proof.
  intros q m s mem d i X. destruct X. split; try assumption. rewrite <- sm_k0. apply emit_ext. assumption.
Qed.
Lemma step_sim : forall q m m1 s mem d i xs mem', SIM q m s mem -> AT m mem -> reads c q m m1 -> ext (emit m1 k d i) M ->
  istep e p mem i = Ok (xs, mem') -> SIM q (emit m1 k d i) s mem /\ AT (emit m1 k d i) mem' /\ (forall a x, In (a, x) xs -> e a = x).
Proof.
  intros q m m1 s mem d i xs mem' X AM RD EX ST. destruct (AT_emit m1 mem d i xs mem') as [EA AM']; try assumption.
  - apply (AT_same m); [|assumption]. rewrite (rd_m _ _ _ _ RD). reflexivity.
  - split; [|split; assumption]. apply SIM_emit. eapply SIM_reads; eassumption.
Qed.
Lemma emit_M : forall q m s mem d i, SIM q m s mem -> ext (emit m k d i) M -> ext m M.
Proof. intros q m s mem d i X EX. eapply ext_trans; [|exact EX]. rewrite <- (sm_k _ _ _ _ X). apply (emit_ext _ _ _ _ _ (sm_posn _ _ _ _ X)). Qed.
Lemma evs_var : forall n t w, e (AVar n t) = w -> ty_of w = t -> evs w (v_e (vvar n t)) (v_ty (vvar n t)).
Proof. intros n t w E T. exists w. split; [unfold vev; cbn [vvar v_e eval]; rewrite E; reflexivity|]. split; [apply rle_refl|exact T]. Qed.

Lemma stm_sim : forall q m s mem i m' q' s', SIM q m s mem -> AT m mem -> lstm q m i = Some (m', q') -> ext m' M -> run1 c s i = Ok s' ->
  exists mem', SIM q' m' s' mem' /\ AT m' mem'.
Proof.
  intros q m s mem i m' q' s' X AM E EX RN. pose proof (sm_posn _ _ _ _ X) as P. pose proof (sm_mem _ _ _ _ X) as SM.
  destruct i as [x e1|x t a|v a|x o a v|x y a d v|a v n|rg e1|rg e1|rg tr t v1 v2 v3|a|e1|e1 a1 a2|a|f|]; cbn [Lower.lstm] in E; cbn [run1] in RN; try discriminate.
  - destruct (def c gcache q m e1) as [[m1 v]|] eqn:D; [|discriminate]. injection E as <- <-.
    destruct (ev c s e1) as [w| |] eqn:EV; try discriminate. cbn [bind] in RN. injection RN as <-.
    destruct (def_sim _ _ _ _ _ _ _ _ X AM D EX EV) as (X1 & A1 & W1 & _). exists mem. split; [apply SIM_var; assumption|assumption].
  - destruct (lowt c gcache q m a TPtr) as [[m1 a1]|] eqn:L1; [|discriminate]. destruct (bytes_ty t); [|discriminate]. injection E as <- <-. destruct (lowt_reads _ _ _ _ _ _ _ _ P L1) as [R1 _].
    destruct (ev c s a) as [w| |] eqn:EV; try discriminate. cbn [bind] in RN.
    destruct (load_rv (s_mem s) t w) as [lv| |] eqn:LV; try discriminate. cbn [bind] in RN. injection RN as <-. rewrite SM in LV.
    rewrite (sm_k _ _ _ _ X) in *.
    destruct (lowt_sim _ _ _ _ _ _ _ _ _ X L1 (emit_M _ _ _ _ _ _ (SIM_reads _ _ _ _ _ X R1) EX) EV) as (w' & VE & RL & TY).
    destruct w as [tw z|tw]; [|unfold load_rv in LV; destruct tw; discriminate]. apply rle_V in RL. subst w'.
    destruct (step_sim _ _ _ _ _ 1 (ILoad (num m1 k 0) t a1) [(AVar (num m1 k 0) t, lv)] mem X AM R1 EX) as (X1 & A1 & EA).
    { cbn [istep]. rewrite VE. cbn [bind]. rewrite LV. reflexivity. }
    exists mem. split; [|assumption]. apply SIM_var; [assumption|]. apply evs_var; [apply EA; left; reflexivity|].
    unfold load_rv in LV. destruct tw; try discriminate. injection LV as <-. reflexivity.
  - destruct (low q m v) as [[[m1 v1] t1]|] eqn:L1; [|discriminate]. pose proof (low_reads _ _ _ _ _ _ _ _ P L1) as R1.
    destruct (lowt c gcache q m1 a TPtr) as [[m2 a1]|] eqn:L2; [|discriminate]. destruct (lowt_reads _ _ _ _ _ _ _ _ (rd_posn _ _ _ _ R1) L2) as [R2 _].
    injection E as <- <-. rewrite (sm_k _ _ _ _ X) in *. pose proof (reads_trans _ _ _ _ _ R1 R2) as R3.
    destruct (ev c s v) as [wv| |] eqn:EV; try discriminate. cbn [bind] in RN.
    destruct (ev c s a) as [wa| |] eqn:EA; try discriminate. cbn [bind] in RN.
    destruct (store_rv (s_mem s) wv wa) as [mm| |] eqn:ST; try discriminate. cbn [bind] in RN. injection RN as <-. rewrite SM in ST.
    pose proof (emit_M _ _ _ _ _ _ (SIM_reads _ _ _ _ _ X R3) EX) as EX2.
    destruct (low_sim _ _ _ _ _ _ _ _ _ X L1 (ext_trans _ _ _ (rd_ext _ _ _ _ R2) EX2) EV) as (w1 & V1 & Q1 & _).
    destruct (lowt_sim _ _ _ _ _ _ _ _ _ (SIM_reads _ _ _ _ _ X R1) L2 EX2 EA) as (w2 & V2 & Q2 & _).
    destruct wa as [ta za|ta]; [|destruct ta; discriminate]. destruct wv as [tv zv|tv]; [|destruct ta; discriminate].
    apply rle_V in Q1, Q2. subst w1 w2.
    destruct (step_sim _ _ _ _ _ 0 (IStore v1 a1) [] mm X AM R3 EX) as (X1 & A1 & _).
    { cbn [istep]. rewrite V1. cbn [bind]. rewrite V2. cbn [bind]. rewrite ST. reflexivity. }
    exists mm. split; [eapply SIM_mem; eassumption|assumption].
  - destruct (lowt c gcache q m a TPtr) as [[m1 a1]|] eqn:L1; [|discriminate]. destruct (lowt_reads _ _ _ _ _ _ _ _ P L1) as [R1 _].
    destruct (low q m1 v) as [[[m2 v1] t1]|] eqn:L2; [|discriminate]. pose proof (low_reads _ _ _ _ _ _ _ _ (rd_posn _ _ _ _ R1) L2) as R2.
    destruct (byte_w t1) as [w|] eqn:IW; [|discriminate]. unfold byte_w in IW. destruct t1 as [w0| | | |]; try discriminate. destruct (bytes_ty (TInt w0)); [|discriminate]. injection IW as ->. injection E as <- <-.
    rewrite (sm_k _ _ _ _ X) in *. pose proof (reads_trans _ _ _ _ _ R1 R2) as R3.
    destruct (ev c s a) as [wa| |] eqn:EA; try discriminate. cbn [bind] in RN.
    destruct (ev c s v) as [wv| |] eqn:EV; try discriminate. cbn [bind] in RN.
    pose proof (emit_M _ _ _ _ _ _ (SIM_reads _ _ _ _ _ X R3) EX) as EX2.
    destruct (lowt_sim _ _ _ _ _ _ _ _ _ X L1 (ext_trans _ _ _ (rd_ext _ _ _ _ R2) EX2) EA) as (w1 & V1 & Q1 & _).
    destruct (low_sim _ _ _ _ _ _ _ _ _ (SIM_reads _ _ _ _ _ X R1) L2 EX2 EV) as (w2 & V2 & Q2 & T2).
    destruct wv as [tv zv|tv]; [|destruct tv; discriminate]. apply rle_V in Q2. subst w2. cbn [ty_of] in T2. subst tv.
    destruct (load_rv (s_mem s) (TInt w) wa) as [old| |] eqn:LD; try discriminate. cbn [bind] in RN.
    destruct wa as [ta za|ta]; [|unfold load_rv in LD; destruct ta; discriminate]. apply rle_V in Q1. subst w1.
    destruct old as [tz oz|]; [|discriminate]. destruct (store_rv (s_mem s) (V (TInt w) (rmw_sem o w oz zv)) (V ta za)) as [mm| |] eqn:ST; try discriminate.
    cbn [bind] in RN. injection RN as <-. rewrite SM in LD, ST.
    destruct (step_sim _ _ _ _ _ 1 (IRmw (num m2 k 0) w o a1 v1) [(AVar (num m2 k 0) (TInt w), V tz oz)] mm X AM R3 EX) as (X1 & A1 & EN).
    { cbn [istep]. rewrite V1. cbn [bind]. rewrite V2. cbn [bind rmw_mem]. rewrite LD. cbn [bind]. rewrite ST. reflexivity. }
    exists mm. split; [|assumption]. eapply SIM_mem. apply SIM_var; [eassumption|]. apply evs_var; [apply EN; left; reflexivity|].
    unfold load_rv in LD. destruct ta; try discriminate. injection LD as <- _. reflexivity.
  - destruct (lowt c gcache q m a TPtr) as [[m1 a1]|] eqn:L1; [|discriminate]. destruct (lowt_reads _ _ _ _ _ _ _ _ P L1) as [R1 _].
    destruct (low q m1 d) as [[[m2 d1] t1]|] eqn:L2; [|discriminate]. pose proof (low_reads _ _ _ _ _ _ _ _ (rd_posn _ _ _ _ R1) L2) as R2.
    destruct (byte_w t1) as [w|] eqn:IW; [|discriminate]. unfold byte_w in IW. destruct t1 as [w0| | | |]; try discriminate. destruct (bytes_ty (TInt w0)); [|discriminate]. injection IW as ->.
    destruct (lowt c gcache q m2 v (TInt w)) as [[m3 v1]|] eqn:L3; [|discriminate]. destruct (lowt_reads _ _ _ _ _ _ _ _ (rd_posn _ _ _ _ R2) L3) as [R3 _].
    injection E as <- <-. rewrite (sm_k _ _ _ _ X) in *. pose proof (reads_trans _ _ _ _ _ (reads_trans _ _ _ _ _ R1 R2) R3) as R4.
    destruct (ev c s a) as [wa| |] eqn:EA; try discriminate. cbn [bind] in RN.
    destruct (ev c s d) as [wd| |] eqn:ED; try discriminate. cbn [bind] in RN.
    destruct (ev c s v) as [wv| |] eqn:EV; try discriminate. cbn [bind] in RN.
    pose proof (emit_M _ _ _ _ _ _ (SIM_reads _ _ _ _ _ X R4) EX) as EX2. pose proof (ext_trans _ _ _ (rd_ext _ _ _ _ R3) EX2) as EX3.
    destruct (lowt_sim _ _ _ _ _ _ _ _ _ X L1 (ext_trans _ _ _ (rd_ext _ _ _ _ R2) EX3) EA) as (w1 & V1 & Q1 & _).
    destruct (low_sim _ _ _ _ _ _ _ _ _ (SIM_reads _ _ _ _ _ X R1) L2 EX3 ED) as (w2 & V2 & Q2 & T2).
    destruct (lowt_sim _ _ _ _ _ _ _ _ _ (SIM_reads _ _ _ _ _ X (reads_trans _ _ _ _ _ R1 R2)) L3 EX2 EV) as (w3 & V3 & Q3 & T3).
    destruct (ty_eqb (ty_of wd) (ty_of wv)) eqn:TQ; [|discriminate].
    destruct wd as [td zd|td]; [|discriminate]. apply rle_V in Q2. subst w2. cbn [ty_of] in T2. subst td.
    destruct wv as [tv zv|tv]; [|discriminate]. apply rle_V in Q3. subst w3. cbn [ty_of] in T3. subst tv.
    destruct (load_rv (s_mem s) (TInt w) wa) as [old| |] eqn:LD; try discriminate. cbn [bind] in RN.
    destruct wa as [ta za|ta]; [|unfold load_rv in LD; destruct ta; discriminate]. apply rle_V in Q1. subst w1.
    destruct old as [tz oz|]; [|discriminate].
    destruct (if oz =? zd then store_rv (s_mem s) (V (TInt w) zv) (V ta za) else Ok (s_mem s)) as [mm| |] eqn:ST; try discriminate.
    cbn [bind] in RN. injection RN as <-. rewrite SM in LD, ST.
    destruct (step_sim _ _ _ _ _ 2 (ICas (num m3 k 0) (num m3 k 1) w a1 d1 v1)
      [(AVar (num m3 k 0) (TInt w), V tz oz); (AVar (num m3 k 1) (TInt 1), V (TInt 1) (b2z (oz =? zd)))] mm X AM R4 EX) as (X1 & A1 & EN).
    { cbn [istep]. rewrite V1. cbn [bind]. rewrite V2. cbn [bind]. rewrite V3. cbn [bind]. unfold cas_mem. cbn [ty_of] in *. rewrite TQ, LD. cbn [bind]. rewrite ST. reflexivity. }
    exists mm. split; [|assumption]. eapply SIM_mem.
    match goal with |- SIM _ _ (with_var s (upd_var (upd_var _ _ ?w1) _ ?w2)) _ => change (with_var s (upd_var (upd_var (s_var s) x w1) y w2))
      with (with_var (with_var s (upd_var (s_var s) x w1)) (upd_var (s_var (with_var s (upd_var (s_var s) x w1))) y w2)) end.
    apply SIM_var; [apply SIM_var; [eassumption|]|].
    + apply evs_var; [apply EN; left; reflexivity|]. unfold load_rv in LD. destruct ta; try discriminate. injection LD as <- _. reflexivity.
    + apply evs_var; [apply EN; right; left; reflexivity|reflexivity].
  - destruct (lowt c gcache q m a TPtr) as [[m1 a1]|] eqn:L1; [|discriminate]. destruct (lowt_reads _ _ _ _ _ _ _ _ P L1) as [R1 _].
    destruct (lowt c gcache q m1 v (TInt 8)) as [[m2 v1]|] eqn:L2; [|discriminate]. destruct (lowt_reads _ _ _ _ _ _ _ _ (rd_posn _ _ _ _ R1) L2) as [R2 _].
    destruct (lowt c gcache q m2 n (TInt 64)) as [[m3 n1]|] eqn:L3; [|discriminate]. destruct (lowt_reads _ _ _ _ _ _ _ _ (rd_posn _ _ _ _ R2) L3) as [R3 _].
    injection E as <- <-. rewrite (sm_k _ _ _ _ X) in *. pose proof (reads_trans _ _ _ _ _ (reads_trans _ _ _ _ _ R1 R2) R3) as R4.
    destruct (ev c s a) as [wa| |] eqn:EA; try discriminate. cbn [bind] in RN.
    destruct (ev c s v) as [wv| |] eqn:EV; try discriminate. cbn [bind] in RN.
    destruct (ev c s n) as [wn| |] eqn:EN; try discriminate. cbn [bind] in RN.
    pose proof (emit_M _ _ _ _ _ _ (SIM_reads _ _ _ _ _ X R4) EX) as EX2. pose proof (ext_trans _ _ _ (rd_ext _ _ _ _ R3) EX2) as EX3.
    destruct (lowt_sim _ _ _ _ _ _ _ _ _ X L1 (ext_trans _ _ _ (rd_ext _ _ _ _ R2) EX3) EA) as (w1 & V1 & Q1 & _).
    destruct (lowt_sim _ _ _ _ _ _ _ _ _ (SIM_reads _ _ _ _ _ X R1) L2 EX3 EV) as (w2 & V2 & Q2 & T2).
    destruct (lowt_sim _ _ _ _ _ _ _ _ _ (SIM_reads _ _ _ _ _ X (reads_trans _ _ _ _ _ R1 R2)) L3 EX2 EN) as (w3 & V3 & Q3 & T3).
    destruct (ty_eqb (ty_of wa) TPtr && ty_eqb (ty_of wv) (TInt 8) && ty_eqb (ty_of wn) (TInt 64)) eqn:TQ; [|discriminate].
    destruct wa as [ta za|ta]; [|discriminate]. destruct wv as [tv zv|tv]; [|discriminate]. destruct wn as [tn zn|tn]; [|discriminate].
    apply rle_V in Q1, Q2, Q3. subst w1 w2 w3. injection RN as <-.
    match goal with |- exists mem', SIM _ _ (with_mem s ?mm) _ /\ _ => destruct (step_sim _ _ _ _ _ 0 (IMemset a1 v1 n1) [] mm X AM R4 EX) as (X1 & A1 & _); [|exists mm] end.
    { cbn [istep]. rewrite V1. cbn [bind]. rewrite V2. cbn [bind]. rewrite V3. cbn [bind]. unfold set_mem. rewrite TQ, SM. reflexivity. }
    split; [eapply SIM_mem; eassumption|assumption].
  - destruct (def c gcache q m e1) as [[m1 v]|] eqn:D; [|discriminate]. destruct (def_ext _ _ _ _ _ _ _ P D) as [P1 E1'].
    destruct (wr_ext _ _ _ _ _ _ P1 E) as (-> & P2 & E2').
    destruct (ev c s e1) as [w| |] eqn:EV; try discriminate. cbn [bind] in RN. injection RN as <-.
    destruct (def_sim _ _ _ _ _ _ _ _ X AM D (ext_trans _ _ _ E2' EX) EV) as (X1 & A1 & W1 & T1). exists mem. eapply set_sim; eassumption.
  - destruct (def c gcache q m e1) as [[m1 v]|] eqn:D; [|discriminate]. destruct (def_ext _ _ _ _ _ _ _ P D) as [P1 E1'].
    destruct (wr_ext _ _ _ _ _ _ P1 E) as (-> & P2 & E2').
    destruct (ev c s e1) as [w| |] eqn:EV; try discriminate. cbn [bind] in RN. injection RN as <-.
    destruct (def_sim _ _ _ _ _ _ _ _ X AM D (ext_trans _ _ _ E2' EX) EV) as (X1 & A1 & W1 & T1). exists mem. eapply merge_sim; eassumption.
  - destruct (ev c s (transform_exp tr t v1 v2 v3)) as [w| |] eqn:EV; try discriminate. cbn [bind] in RN. injection RN as <-.
    destruct (transform_uses _ _ _ _ _ _ _ EV) as ((w1 & EV1) & U2 & U3).
    destruct (deft c gcache q m v1 t) as [[m1 x1]|] eqn:D1; [|discriminate]. destruct (deft_ext _ _ _ _ _ _ _ _ P D1) as [P1 Q1].
    assert (ONE : ext m1 m' -> SIM q m1 s mem /\ AT m1 mem /\ evs w1 (v_e x1) t /\ tyok A x1 /\ v_ty x1 = t).
    { intro Q. exact (deft_sim _ _ _ _ _ _ _ _ _ X AM D1 (ext_trans _ _ _ Q EX) EV1). }
    assert (F1 : forall y2 y3, uses2 tr = false -> uses3 tr = false -> wr c q m1 (WLazy rg tr x1 y2 y3) = Some (m', q') ->
      SIM q' m' (with_reg s (upd_reg (s_reg s) rg (set_cell (native_size A rg) w))) mem /\ AT m' mem).
    { intros y2 y3 N2 N3 E'. destruct (wr_ext _ _ _ _ _ _ P1 E') as (_ & _ & Q2). destruct (ONE Q2) as (X1 & A1 & W1 & _ & T1).
      eapply flag_sim; try eassumption; [eapply rel_evs; eassumption|congruence|congruence]. }
    assert (F2 : forall m2 x2 y3, uses2 tr = true -> uses3 tr = false -> deft c gcache q m1 v2 t = Some (m2, x2) -> wr c q m2 (WLazy rg tr x1 x2 y3) = Some (m', q') ->
      SIM q' m' (with_reg s (upd_reg (s_reg s) rg (set_cell (native_size A rg) w))) mem /\ AT m' mem).
    { intros m2 x2 y3 N2 N3 D2 E'. destruct (U2 N2) as (w2 & EV2). destruct (deft_ext _ _ _ _ _ _ _ _ P1 D2) as [P2 Q2].
      destruct (wr_ext _ _ _ _ _ _ P2 E') as (_ & _ & Q3). destruct (ONE (ext_trans _ _ _ Q2 Q3)) as (X1 & A1 & W1 & _ & T1).
      destruct (deft_sim _ _ _ _ _ _ _ _ _ X1 A1 D2 (ext_trans _ _ _ Q3 EX) EV2) as (X2 & A2 & W2 & _ & T2).
      eapply flag_sim; try eassumption; [eapply rel_evs; eassumption|intros _; eapply rel_evs; eassumption|congruence]. }
    assert (F3 : forall m2 x2 m3 x3, uses2 tr = true -> uses3 tr = true -> deft c gcache q m1 v2 t = Some (m2, x2) -> deft c gcache q m2 v3 t = Some (m3, x3) ->
      wr c q m3 (WLazy rg tr x1 x2 x3) = Some (m', q') ->
      SIM q' m' (with_reg s (upd_reg (s_reg s) rg (set_cell (native_size A rg) w))) mem /\ AT m' mem).
    { intros m2 x2 m3 x3 N2 N3 D2 D3 E'. destruct (U2 N2) as (w2 & EV2). destruct (U3 N3) as (w3 & EV3). destruct (deft_ext _ _ _ _ _ _ _ _ P1 D2) as [P2 Q2].
      destruct (deft_ext _ _ _ _ _ _ _ _ P2 D3) as [P3 Q3].
      destruct (wr_ext _ _ _ _ _ _ P3 E') as (_ & _ & Q4). destruct (ONE (ext_trans _ _ _ Q2 (ext_trans _ _ _ Q3 Q4))) as (X1 & A1 & W1 & _ & T1).
      destruct (deft_sim _ _ _ _ _ _ _ _ _ X1 A1 D2 (ext_trans _ _ _ Q3 (ext_trans _ _ _ Q4 EX)) EV2) as (X2 & A2 & W2 & _ & T2).
      destruct (deft_sim _ _ _ _ _ _ _ _ _ X2 A2 D3 (ext_trans _ _ _ Q4 EX) EV3) as (X3 & A3 & W3 & _ & T3).
      eapply flag_sim; try eassumption; [eapply rel_evs; eassumption|intros _; eapply rel_evs; eassumption|intros _; eapply rel_evs; eassumption]. }
    exists mem. destruct tr; try (eapply F1; try eassumption; reflexivity).
    all: destruct (deft c gcache q m1 v2 t) as [[m2 x2]|] eqn:D2; [|discriminate]; try (eapply F2; try eassumption; reflexivity).
    all: destruct (deft c gcache q m2 v3 t) as [[m3 x3]|] eqn:D3; [|discriminate]; eapply F3; try eassumption; reflexivity.
  - injection E as <- <-. injection RN as <-. exists mem. split; [apply SIM_pc; [assumption|reflexivity]|assumption].
  - destruct (deft c gcache q m e1 (TInt 64)) as [[m1 v]|] eqn:D; [|discriminate]. injection E as <- <-.
    destruct (ev c s e1) as [w| |] eqn:EV; try discriminate. cbn [bind] in RN. injection RN as <-.
    destruct (deft_sim _ _ _ _ _ _ _ _ _ X AM D EX EV) as (X1 & A1 & W1 & _). exists mem. split; [apply SIM_pc; [assumption|exact W1]|assumption].
  - destruct (deft c gcache q m e1 (TInt 1)) as [[m1 v]|] eqn:D; [|discriminate]. injection E as <- <-.
    destruct (ev c s e1) as [w| |] eqn:EV; try discriminate. cbn [bind] in RN. injection RN as <-.
    destruct (deft_sim _ _ _ _ _ _ _ _ _ X AM D EX EV) as (X1 & A1 & W1 & _). exists mem. split; [apply SIM_pc; [assumption|cbn [pcr]; auto]|assumption].
  - destruct (deft c gcache q m (ELeaf (DPc 0)) (TInt 64)) as [[m1 v]|] eqn:D; [|discriminate]. injection E as <- <-.
    destruct (pc_value c (s_pc s) 0) as [w| |] eqn:EV; try discriminate. cbn [bind] in RN. injection RN as <-.
    destruct (deft_sim _ _ _ _ _ _ _ _ _ X AM D EX EV) as (X1 & A1 & W1 & _). exists mem. split; [apply SIM_pc; [assumption|cbn [pcr]; auto]|assumption].
Qed.
(** ** Where the code of a register file ends *)
Variable bs : list (lblock (LA := plain_lang) Ins).
Variable x0 : conf (LA := plain_lang) Ins.
Notation steps := (lsteps (LA := plain_lang) Ins c ds bs).
Notation CRun := (CRun (LA := plain_lang) Ins).
Notation COut := (COut (LA := plain_lang) Ins).
Hypothesis HOK : forall n, exists x, steps n x0 = Ok x.
(** The statements [l] are next, in state [s]; or the instructions [segs]; after at
    least [lo] steps. *)
Variable lo : nat.
Definition POS (l : list stm) (segs : list (seg (LA := plain_lang) Ins)) (en : bend) (s : st) : Prop :=
  exists n i d s1 pre, steps n x0 = Ok (CRun ((i, d, pre ++ l) :: segs) en s1) /\ run c s1 pre = Ok s /\ (lo <= n)%nat.
(** The [n]-th step, if there is one, left a block by a branch, not by a return. *)
Definition viax (n : nat) : Prop :=
  match n with O => True | Datatypes.S m => exists en s, en <> BRet /\ steps m x0 = Ok (CRun [] en s) end.
Definition PEND (segs : list (seg (LA := plain_lang) Ins)) (en : bend) (s : st) : Prop := exists n, steps n x0 = Ok (CRun segs en s) /\ (lo <= n)%nat.
Definition cont (x : option loc) (m : em) (segs : list (seg (LA := plain_lang) Ins)) (en : bend) : option em :=
  match x with
  | Some q => lsegs q m segs en
  | None => if is_nil segs then match en with BRet => Some m | _ => None end else None
  end.
Lemma POS_step : forall i l segs en s, POS (i :: l) segs en s -> exists s', run1 c s i = Ok s' /\ POS l segs en s'.
Proof.
  intros i l segs en s (n & j & d & s1 & pre & E & RN & LO). destruct (HOK (Datatypes.S n)) as (x & E2). rewrite lsteps_snoc, E in E2. cbn [bind lstep crun plain_lang] in E2.
  rewrite run_app, RN in E2. cbn [bind run] in E2. destruct (run1 c s i) as [s'| |] eqn:R1; try discriminate. exists s'. split; [reflexivity|].
  exists n, j, d, s1, (pre ++ [i]). rewrite <- app_assoc. split; [exact E|]. rewrite run_app, RN. cbn [bind run]. rewrite R1. auto.
Qed.
Lemma POS_nil : forall segs en s, POS [] segs en s -> PEND segs en s.
Proof.
  intros segs en s (n & j & d & s1 & pre & E & RN & LO). exists (Datatypes.S n). split; [|apply le_S; exact LO]. rewrite lsteps_snoc, E. cbn [bind lstep crun plain_lang]. rewrite app_nil_r, RN. reflexivity.
Qed.
Lemma cont_ext : forall x m segs en m', wf m -> (forall q, x = Some q -> posn q m) -> cont x m segs en = Some m' -> ext m m'.
Proof.
  intros [q|] m segs en m' W P E; cbn [cont] in E.
  - eapply lsegs_ext; [apply P; reflexivity|eassumption].
  - destruct segs; [|discriminate]. destruct en; try discriminate. injection E as <-. apply ext_refl.
Qed.
Inductive STOP : Prop :=
| stop_call : forall q m s mem f l segs en m' q' m2 x m4, SIM q m s mem -> AT m mem -> POS (SCall f :: l) segs en s -> lcall c q m f = Some (m', q') ->
    lstms q' m' l = Some (m2, x) -> cont x m2 segs en = Some m4 -> ext m4 M -> STOP
| stop_ret : forall q m s mem m', SIM q m s mem -> AT m mem -> POS [SRet] [] BRet s -> lret c q m = Some m' -> ext m' M -> STOP
| stop_end : forall q m s mem en m', SIM q m s mem -> AT m mem -> PEND [] en s -> lend c Ins ds a0 cfold q m en = Some m' -> ext m' M -> STOP.

Lemma stms_stop : forall segs en m4, ext m4 M ->
  (forall q m s mem, PEND segs en s -> SIM q m s mem -> AT m mem -> lsegs q m segs en = Some m4 -> STOP) ->
  forall l q m s mem m2 x, POS l segs en s -> SIM q m s mem -> AT m mem -> lstms q m l = Some (m2, x) -> cont x m2 segs en = Some m4 -> STOP.
Proof.
  intros segs en m4 EX IH. induction l as [|i l IHl]; intros q m s mem m2 x PS X AM E CT.
  - injection E as <- <-. eapply IH; try eassumption. apply POS_nil. exact PS.
  - rewrite lstms_cons in E.
    assert (NX : (forall f, i <> SCall f) -> i <> SRet -> (opt (m, q) <- lstm q m i; lstms q m l) = Some (m2, x) -> STOP).
    { intros _ _ E'. destruct (lstm q m i) as [[m1 q1]|] eqn:L1; [|discriminate].
      destruct (POS_step _ _ _ _ _ PS) as (s' & R1 & PS'). destruct (lstm_ext _ _ _ _ _ _ _ (sm_posn _ _ _ _ X) L1) as (P1 & _).
      destruct (lstms_ext _ _ _ _ _ _ _ P1 E') as (Q1 & W2 & P2). pose proof (cont_ext _ _ _ _ _ W2 P2 CT) as Q2.
      destruct (stm_sim _ _ _ _ _ _ _ _ X AM L1 (ext_trans _ _ _ Q1 (ext_trans _ _ _ Q2 EX)) R1) as (mem' & X' & A'). eapply IHl; eassumption. }
    destruct i as [y e1|y t a|v a|y o a v|y z a d v|a v n|rg e1|rg e1|rg tr t v1 v2 v3|a|e1|e1 a1 a2|a|f|]; try (apply NX; [discriminate|discriminate|exact E]).
    + destruct (lcall c q m f) as [[m1 q1]|] eqn:L1; [|discriminate]. eapply stop_call; eassumption.
    + destruct (lret c q m) as [m1|] eqn:L1; [|discriminate]. destruct l; [|discriminate]. injection E as <- <-. cbn [cont] in CT.
      destruct segs; [|discriminate]. destruct en; try discriminate. injection CT as <-. eapply stop_ret; eassumption.
Qed.
Lemma segs_stop : forall segs en m4, ext m4 M -> forall q m s mem, PEND segs en s -> SIM q m s mem -> AT m mem -> lsegs q m segs en = Some m4 -> STOP.
Proof.
  induction segs as [|[[i d] code] segs IH]; intros en m4 EX q m s mem PS X AM E.
  - eapply stop_end; eassumption.
  - cbn [Lower.lsegs] in E. destruct (lstms q m code) as [[m2 x]|] eqn:L1; [|discriminate].
    eapply (stms_stop segs en m4 EX (IH en m4 EX)); try eassumption. destruct PS as (n & PS & LO). exists n, i, d, s, []. split; [exact PS|split; [reflexivity|exact LO]].
Qed.
Lemma pc_total : forall q v, pcr q v -> exists w, pc_value c v 0 = Ok w.
Proof.
  intros q v P. destruct q as [x|a|x a1 a2|x a], v as [w0|b|w0 b1 b2|w0 b]; try contradiction; cbn [pc_value Z.eqb pcr] in *; try (eexists; reflexivity).
  destruct P as ((w' & _ & RL & TY) & _). apply rle_ty in RL. rewrite TY in RL. unfold sel_sem.
  rewrite RL. cbn [ty_of]. rewrite ty_eqb_refl. destruct w0; eexists; reflexivity.
Qed.
End Seg.

(** ** The whole function *)
(** What is assumed of external functions: they depend on the CPU struct only by the
    registers it has, and when more of these are defined, the result is the same or
    more defined. *)
Definition cle (u u' : cpu) : Prop :=
  ole (u_pc u) (u_pc u') /\ (forall r, held A r -> ole (u_reg u r) (u_reg u' r)) /\ u_mem u = u_mem u'.
Definition ext_ok : Prop := forall f u u', cle u u' -> cle (c_ext c f u) (c_ext c f u').

Section Main.
Variable bs : list (lblock (LA := plain_lang) Ins).
Variable M : em.
Variable npc : nat.
Variable L : lifted.
Variable is_undef : value -> bool.
Variable fuel : nat.
Variable ord : list nat.
Hypothesis LOW : lower c Ins ds a0 cfold gcache bs = Some (M, npc).
Hypothesis US : undef_sound A is_undef.
Hypothesis AB : all_blocks (m_f M) ord.
Hypothesis FIN : Cfg.finish A is_undef fuel (m_f M) ord = Some L.
Hypothesis EXT : ext_ok.
Variable S0 : slots.
Variable p0 : rv.
Variable m0 : bytes.
Notation irun := (irun c M npc L S0 p0 m0).
Definition fold_ok : Prop := forall k e S p mem mem' x z, irun k e S p mem -> iseq e p mem (code_of M k) (Ok mem') ->
  In (k, x, z) (m_fold M) -> vev e x = Ok (V (TInt 1) (b2z z)).
Hypothesis FOLD : fold_ok.
Variable s0 : st.
Variable x0 : conf (LA := plain_lang) Ins.
Notation steps := (lsteps (LA := plain_lang) Ins c ds bs).
Notation CRun := (CRun (LA := plain_lang) Ins).
Notation COut := (COut (LA := plain_lang) Ins).
Hypothesis X0 : goto (LA := plain_lang) Ins ds bs a0 s0 = Ok x0.
Hypothesis HOK : forall n, exists x, steps n x0 = Ok x.
Hypothesis MEM0 : s_mem s0 = m0.
Hypothesis REG0 : forall r, held A r -> ole (s_reg s0 r) (rbits (S0 r)).

Notation POS := (POS bs x0).
Notation PEND := (PEND bs x0).
Lemma lw : lowered c Ins ds a0 cfold gcache bs M npc.
Proof. apply lower_inv. exact LOW. Qed.
Lemma shape : same_shape (m_f M) (l_fn L) /\ f_log (l_fn L) = f_log (m_f M).
Proof.
  destruct (finish_finished A own is_undef (m_f M) ord fuel L US (lw_built _ _ _ _ _ _ _ _ _ lw) (lw_n _ _ _ _ _ _ _ _ _ lw) AB FIN) as (fu & m & FD).
  split; [apply (rx_shape _ _ _ (fd_ext _ _ _ _ _ _ FD))|apply (rx_log _ _ _ (fd_ext _ _ _ _ _ _ FD))].
Qed.
Lemma values : forall k e S R, reach A own L k e S R -> forall l2 g rg fc v l1, f_log (m_f M) = l2 ++ (OGet g k rg fc, Some v) :: l1 ->
  ole (facet_of fc (seg_regs A e S R k l1 rg)) (pv e v).
Proof.
  intros k e S R RE. exact (values_across_blocks A own is_undef (m_f M) ord fuel L US (lw_built _ _ _ _ _ _ _ _ _ lw) (lw_n _ _ _ _ _ _ _ _ _ lw) AB FIN k e S R RE).
Qed.

(** The register file [k] has at its end the registers of the position it was left from. *)
Lemma regs_end : forall m e S R k rg, ext m M -> closed (m_f m) k -> seg_regs A e S R k (f_log (m_f M)) rg = seg_regs A e S R k (f_log (m_f m)) rg.
Proof.
  intros m e S R k rg EX CL. destruct (fe_log _ _ (ex_f _ _ EX)) as (l2 & EL & FO). rewrite EL. unfold seg_regs. apply rcell_skip.
  intros ox I0. apply cstep_other. left. exact (FO k CL ox I0).
Qed.
Lemma rng_le : forall (s : st) (S : slots), slots_ok A S -> (forall r, mapped A r -> ole (s_reg s r) (rbits (S r))) ->
  forall r z, mapped A r -> s_reg s r = Some z -> inr (native_size A r) z.
Proof.
  intros s S SO LE r z MR E. specialize (LE r MR). rewrite E in LE. specialize (LE z eq_refl). destruct (SO r) as [T W].
  destruct (S r) as [t z'|t]; [|discriminate]. injection LE as ->. cbn [wf_rv ty_of] in *. subst t. rewrite nty_size in W. exact W.
Qed.

(** States at the beginning of the code of a register file. *)
Definition piece (lo k : nat) (e : env) (S : slots) (R : regs) (p : rv) (mem : bytes) : Prop :=
  f_bb (m_f M) k <> exitb /\ sys_ok c k e S /\ exists q m s, (forall r, iseq e p mem (code_of M k) r -> SIM e S R k q m s mem /\ AT M e k p r m mem) /\
    ((exists segs en m4, PEND lo segs en s /\ lsegs q m segs en = Some m4 /\ ext m4 M) \/
     (exists l segs en m2 x m4, POS lo l segs en s /\ lstms q m l = Some (m2, x) /\ cont x m2 segs en = Some m4 /\ ext m4 M)).
Definition regs_in (s : st) (S : slots) (R : regs) : Prop :=
  (forall r, mapped A r -> ole (s_reg s r) (R r)) /\ forall r, sysb A r = true -> ole (s_reg s r) (rbits (S r)).
Definition left_at (lo k : nat) (e : env) (S : slots) (R : regs) (mem : bytes) : Prop :=
  f_first (m_f M) exitb = Some k /\
  exists n s v, steps n x0 = Ok (COut s) /\ s_mem s = mem /\ regs_in s S R /\
    pc_value c (s_pc s) 0 = Ok v /\ rle v (e (AVar npc (TInt 64))) /\ (lo <= n)%nat /\ viax bs x0 n.
Definition PINV (lo k : nat) (e : env) (S : slots) (p : rv) (mem : bytes) : Prop :=
  env_ok A e /\ exists R, reach A own L k e S R /\ (piece lo k e S R p mem \/ left_at lo k e S R mem).
Definition EINV (k : nat) (e : env) (S : slots) (mem : bytes) : Prop :=
  k = 0%nat /\ S = S0 /\ mem = m0 /\ slots_ok A S0 /\ env_ok A e /\ reach A own L 0 e S0 (fun r => rbits (S0 r)).

Lemma piece_stop : forall lo k e S R p mem r, env_ok A e -> reach A own L k e S R -> piece lo k e S R p mem -> iseq e p mem (code_of M k) r ->
  STOP M e S R k p r bs x0 lo.
Proof.
  intros lo k e S R p mem r EO RE (_ & SY & q & m & s & XA & CT) IS. destruct (XA r IS) as [X AM]. destruct CT as [(segs & en & m4 & PS & E & EX)|(l & segs & en & m2 & x & m4 & PS & E & CT & EX)].
  - eapply segs_stop; try eassumption. apply values. exact RE.
  - eapply stms_stop; try eassumption; [apply values; exact RE|]. intros. eapply segs_stop; try eassumption. apply values. exact RE.
Qed.

(** Entering a block. *)
Lemma enter_blk : forall lo k' e' S' R' p mem a t n y s, env_ok A e' -> reach A own L k' e' S' R' -> goto (LA := plain_lang) Ins ds bs a s = Ok y -> steps n x0 = Ok y -> (lo <= n)%nat ->
  goes Ins ds M a t -> f_first (m_f M) t = Some k' -> s_mem s = mem -> regs_in s S' R' -> sys_ok c k' e' S' ->
  (forall r z, mapped A r -> s_reg s r = Some z -> inr (native_size A r) z) ->
  (t = exitb -> exists v, pc_value c (s_pc s) 0 = Ok v /\ rle v (e' (AVar npc (TInt 64)))) -> viax bs x0 n -> PINV lo k' e' S' p mem.
Proof.
  intros lo k' e' S' R' p mem a t n y s EO RE GT ST LO GO F1 MM [RG RY] SY RN PC VX. split; [assumption|]. exists R'. split; [assumption|]. unfold goto in GT.
  destruct GO as [[RS ->]|[RS IB]]; rewrite RS in GT.
  - injection GT as <-. right. split; [assumption|]. destruct (PC eq_refl) as (v & PV & RV). exists n, s, v. unfold regs_in. auto 10.
  - left. unfold block_at in GT. destruct (find (fun b => lb_addr Ins b =? a) bs) as [b|] eqn:FB; [|discriminate]. injection GT as <-.
    apply find_some in FB. destruct FB as [IB' AE]. apply Z.eqb_eq in AE. subst a.
    destruct (lw_blk _ _ _ _ _ _ _ _ _ lw b IB') as (m & t' & m3 & RS' & IB2 & P3 & F1' & C3 & (i & z & LG) & W & m4 & LS & EX).
    assert (TT : t' = t) by (eapply nodup_key; [exact (lw_nd _ _ _ _ _ _ _ _ _ lw)|eassumption|eassumption]). subst t'.
    rewrite F1 in F1'. injection F1' as KE. cbv zeta in *. rewrite <- KE in *.
    split; [rewrite (proj1 (proj2 (st_first _ (proj2 (built_BI _ _ _ (lw_built _ _ _ _ _ _ _ _ _ lw))) _ _ F1))); exact (lw_ne _ _ _ _ _ _ _ _ _ lw _ _ IB)|]. split; [exact SY|].
    exists (Loc t k' (fun _ => None) None), m3, s. split.
    + intros r IS. split.
      * split; try assumption; try reflexivity; try discriminate. intros rg MR. rewrite LG. unfold seg_regs. cbn [rcell cstep].
        destruct (built_BI _ _ _ (wf_built _ _ W)) as [CO _]. rewrite rcell_fresh; [apply RG; assumption|apply (co_wf _ _ _ _ _ _ _ _ CO)|].
        rewrite (co_n _ _ _ _ _ _ _ _ CO), <- KE. constructor.
      * exists (code_of M k'). rewrite C3. split; [reflexivity|exact IS].
    + left. exists (lb_code Ins b), (lb_end Ins b), m4. split; [exists n; split; [exact ST|exact LO]|]. split; assumption.
Qed.
(** The state after a piece of code, whatever ended it. *)
Record ENDS (k : nat) (e : env) (S : slots) (R : regs) (p : rv) (r : res bytes) (s : st) (mem : bytes) (pq : spc) : Prop := {
  ed_r : r = Ok mem;
  ed_mem : s_mem s = mem;
  ed_reg : forall rg, mapped A rg -> ole (s_reg s rg) (seg_regs A e S R k (f_log (m_f M)) rg);
  ed_rng : forall rg z, mapped A rg -> s_reg s rg = Some z -> inr (native_size A rg) z;
  ed_sys : forall rg, sysb A rg = true -> ole (s_reg s rg) (rbits (S rg));
  ed_pcr : pcr e pq (s_pc s);
  ed_pc : exists w w', pc_value c (s_pc s) 0 = Ok w /\ vev e (pc_exp c pq 0) = Ok w' /\ rle w w' /\ ty_of w' = TInt 64;
}.
Lemma ends : forall k e S R p r q m s mem m' pq, SIM e S R k q m s mem -> AT M e k p r m mem -> x_pc q = Some pq ->
  ext m' M -> closed (m_f m') k -> m_code m' k = m_code m k -> (forall rg, seg_regs A e S R k (f_log (m_f m')) rg = seg_regs A e S R k (f_log (m_f m)) rg) ->
  ENDS k e S R p r s mem pq.
Proof.
  intros k e S R p r q m s mem m' pq X AM XP EX CL MC LG. destruct (closed_keep _ _ _ EX CL) as [KC _].
  pose proof (sm_pc _ _ _ _ _ _ _ _ X pq XP) as PR. split.
  - eapply AT_end; [|exact AM]. congruence.
  - apply X.
  - intros rg MR. rewrite (regs_end _ _ _ _ _ _ EX CL), LG. apply X. assumption.
  - apply X.
  - apply X.
  - exact PR.
  - destruct (pc_total _ _ _ PR) as (w & PW). destruct (pc_sim _ _ _ _ _ PR PW) as (w' & V1 & RL & TY). exists w, w'. auto.
Qed.
(** The three ways a piece of code ends. *)
Inductive OUT (lo k : nat) (e : env) (S : slots) (R : regs) (p : rv) (r : res bytes) : Prop :=
| out_call : forall s mem pq f k' b l segs en q' m' m2 x m4, ENDS k e S R p r s mem pq -> m_term M k = Some (TCall f (pc_exp c pq 0) k') ->
    In (Pack k b (Some k')) (f_packs (m_f M)) -> POS lo (SCall f :: l) segs en s ->
    posn q' m' -> x_k q' = k' -> (forall y, x_var q' y = None) ->
    (exists n, x_pc q' = Some (QVal (ELeaf (AVar n (TInt 64)))) /\ m_code m' k' = [IPcLoad n]) ->
    (forall e' S' rg, seg_regs A e' S' (fun r => rbits (S' r)) k' (f_log (m_f m')) rg = rbits (S' rg)) ->
    lstms q' m' l = Some (m2, x) -> cont x m2 segs en = Some m4 -> ext m' M -> ext m4 M -> OUT lo k e S R p r
| out_ret : forall s mem pq b, ENDS k e S R p r s mem pq -> m_term M k = Some (TRet (pc_exp c pq 0)) ->
    In (Pack k b None) (f_packs (m_f M)) -> POS lo [SRet] [] BRet s -> OUT lo k e S R p r
| out_end : forall s mem pq b en t, ENDS k e S R p r s mem pq -> m_term M k = Some t -> f_file (m_f M) b = Some k ->
    m_pcx M b = Some (pc_exp c pq 0) -> PEND lo [] en s -> dest c Ins ds M k pq en t ->
    (forall b', (exists x t' o, t = TCond x t' o /\ (b' = t' \/ b' = o)) \/ t = TBr b' -> In b' (f_succs (m_f M) b)) -> OUT lo k e S R p r.
Lemma dest_ext : forall m m' k pq en t, ext m m' -> dest c Ins ds m k pq en t -> dest c Ins ds m' k pq en t.
Proof.
  intros m m' k pq en t EX D. destruct D; [constructor|econstructor; eassumption| | |].
  - eapply de_const; [eassumption|]. eapply goes_ext; eassumption.
  - eapply de_fold; [eassumption|apply (ex_fold _ _ EX); eassumption|]. eapply goes_ext; eassumption.
  - eapply de_cond; [eassumption|..]; eapply goes_ext; eassumption.
Qed.
Lemma piece_out : forall lo k e S R p mem r, env_ok A e -> reach A own L k e S R -> piece lo k e S R p mem -> iseq e p mem (code_of M k) r -> OUT lo k e S R p r.
Proof.
  intros lo k e S R p mem r EO RE PI IS. pose proof (piece_stop _ _ _ _ _ _ _ _ EO RE PI IS) as ST. clear PI IS mem.
  destruct ST as [q m s mem f l segs en m' q' m2 x m4 X AM PS LC LS CT EX|q m s mem m' X AM PS LR EX|q m s mem en m' X AM PS LE EX].
  - pose proof (sm_posn _ _ _ _ _ _ _ _ X) as P. pose proof (sm_k _ _ _ _ _ _ _ _ X) as XK.
    destruct (lcall_inv _ _ _ _ _ _ P LC) as (pq & n & XP & _ & Q' & P' & E1 & CL & TM & MC & MC' & IP & l2 & y & LG & LD). rewrite XK in *.
    destruct (lstms_ext _ _ _ _ _ _ _ P' LS) as (Q1 & W2 & P2). pose proof (cont_ext _ _ _ _ _ W2 P2 CT) as Q2.
    pose proof (ext_trans _ _ _ Q1 (ext_trans _ _ _ Q2 EX)) as EX'.
    destruct (posn_bb _ _ _ P) as (_ & KN & _). rewrite XK in KN.
    eapply (out_call _ _ _ _ _ _ _ s mem pq f (f_n (m_f m))); try eassumption.
    + eapply ends; try eassumption. intro rg. rewrite LG. unfold seg_regs. rewrite rcell_skip; [reflexivity|].
      intros ox I0. destruct (LD ox I0) as (r' & t' & ->). apply cstep_other. left. cbn [file_of]. intro Q. injection Q as Q. rewrite Q in KN. revert KN. apply Nat.lt_irrefl.
    + destruct (closed_keep _ _ _ EX' CL) as [_ ->]. exact TM.
    + apply (fe_packs _ _ (ex_f _ _ EX')). exact IP.
    + rewrite Q'. reflexivity.
    + rewrite Q'. reflexivity.
    + exists n. rewrite Q'. split; [reflexivity|exact MC'].
    + intros e' S' rg. rewrite LG. unfold seg_regs. destruct (built_BI _ _ _ (pn_built _ _ _ P)) as [CO _]. clear - LD CO.
      induction l2 as [|[o z] l2 IH]; cbn [app rcell cstep].
      * apply rcell_fresh; [apply (co_wf _ _ _ _ _ _ _ _ CO)|]. rewrite (co_n _ _ _ _ _ _ _ _ CO). constructor.
      * rewrite IH by (intros ox I0; apply LD; right; exact I0). destruct (LD _ (or_introl eq_refl)) as (r' & t' & Q). cbn [fst] in Q. subst o. cbn [cstep].
        destruct (_ && _); reflexivity.
  - pose proof (sm_posn _ _ _ _ _ _ _ _ X) as P. pose proof (sm_k _ _ _ _ _ _ _ _ X) as XK.
    destruct (lret_inv _ _ _ _ P LR) as (pq & XP & W' & E1 & CL & TM & MC & LG & IP). rewrite XK in *.
    eapply (out_ret _ _ _ _ _ _ _ s mem pq (x_b q)); try eassumption.
    + eapply ends; try eassumption; [rewrite MC; reflexivity|]. intro rg. rewrite LG. reflexivity.
    + destruct (closed_keep _ _ _ EX CL) as [_ ->]. exact TM.
    + apply (fe_packs _ _ (ex_f _ _ EX)). exact IP.
  - pose proof (sm_posn _ _ _ _ _ _ _ _ X) as P. pose proof (sm_k _ _ _ _ _ _ _ _ X) as XK.
    destruct (lend_inv _ _ _ _ _ gcache _ _ _ _ P LE) as (pq & t & [(m1 & LT & E1 & MC & LG) XP PX] & D). destruct LT. rewrite XK in *.
    eapply (out_end _ _ _ _ _ _ _ s mem pq (x_b q) en t); try eassumption.
    + eapply (ends _ _ _ _ _ _ q m s mem m'); try eassumption; [rewrite lt_code, MC; reflexivity|]. intro rg. rewrite lt_log, LG. reflexivity.
    + destruct (closed_keep _ _ _ EX lt_closed) as [_ ->]. exact lt_term.
    + destruct (fe_succs _ _ (ex_f _ _ EX) (x_b q)) as [_ ->]; [|exact lt_file]. apply (proj2 lt_closed). exact lt_file.
    + rewrite (ex_pcx _ _ EX); [exact PX|]. apply (proj2 lt_closed). exact lt_file.
    + eapply dest_ext; eassumption.
    + intros b' Q. destruct (fe_succs _ _ (ex_f _ _ EX) (x_b q)) as [-> _]; [|apply lt_succs; exact Q]. apply (proj2 lt_closed). exact lt_file.
Qed.
Lemma sync : forall k e S R b n r, reach A own L k e S R -> In (Pack k b n) (f_packs (m_f M)) -> mapped A r ->
  ole (seg_regs A e S R k (f_log (m_f M)) r) (rbits (end_slots L e S k r)).
Proof.
  intros k e S R b n r RE IP MR.
  exact (cpu_struct_in_sync A own is_undef (m_f M) ord fuel L US (lw_built _ _ _ _ _ _ _ _ _ lw) (lw_n _ _ _ _ _ _ _ _ _ lw) AB FIN k e S R RE _ r IP eq_refl MR).
Qed.
Lemma end_sys : forall e S k r, sysb A r = true -> end_slots L e S k r = S r.
Proof.
  intros e S k r SB.
  destruct (finish_finished A own is_undef (m_f M) ord fuel L US (lw_built _ _ _ _ _ _ _ _ _ lw) (lw_n _ _ _ _ _ _ _ _ _ lw) AB FIN) as (fu & m & FD).
  destruct (fin_hyps A own fu (m_f M) m L (lw_n _ _ _ _ _ _ _ _ _ lw) FD) as (_ & _ & _ & SV & _).
  assert (X : forall l S, (forall k r v, In (k, r, v) l -> mapped A r) -> do_stores e S l r = S r).
  { induction l as [|[[k1 r1] v1] l IH]; intros S1 MP; [reflexivity|]. unfold do_stores in *. cbn [fold_left]. rewrite IH by (intros k2 r2 v2 I0; apply (MP k2 r2 v2); right; exact I0).
    cbn [store1]. destruct (areg_eqb r1 r) eqn:Q; [|reflexivity]. apply areg_eqb_eq in Q. subst r1. destruct (sys_unmapped _ _ SB (MP k1 r v1 (or_introl eq_refl))). }
  apply X. intros k1 r1 v1 I0. unfold seg_stores in I0. apply filter_In in I0. exact (proj1 (SV _ _ _ (proj1 I0))).
Qed.
Lemma ole_trans : forall a b d : option Z, ole a b -> ole b d -> ole a d.
Proof. intros a b d X Y z E. apply Y, X, E. Qed.
Lemma file_bb : forall b k, f_file (m_f M) b = Some k -> f_bb (m_f M) k = b.
Proof. intros b k E. destruct (built_BI _ _ _ (lw_built _ _ _ _ _ _ _ _ _ lw)) as [_ B]. apply (st_file _ B _ _ E). Qed.
Lemma shapes : f_file (l_fn L) = f_file (m_f M) /\ f_succs (l_fn L) = f_succs (m_f M) /\ f_packs (l_fn L) = f_packs (m_f M) /\ f_first (l_fn L) = f_first (m_f M) /\ f_bb (l_fn L) = f_bb (m_f M).
Proof. destruct shape as [SH _]. unfold same_shape in SH. tauto. Qed.

(** Where control goes at the end of a block, in the builder semantics. *)
Lemma end_step : forall lo k e S R p r s mem pq en t, ENDS k e S R p r s mem pq -> PEND lo [] en s -> dest c Ins ds M k pq en t ->
  (forall x z, In (k, x, z) (m_fold M) -> vev e x = Ok (V (TInt 1) (b2z z))) ->
  exists b', next_blk e t = Some (Ok b') /\
    ((b' = exitb /\ exists n, steps n x0 = Ok (COut s) /\ (Datatypes.S lo <= n)%nat /\ viax bs x0 n) \/
     exists n a y, goes Ins ds M a b' /\ goto (LA := plain_lang) Ins ds bs a s = Ok y /\ steps n x0 = Ok y /\ (Datatypes.S lo <= n)%nat /\ viax bs x0 n).
Proof.
  intros lo k e S R p r s mem pq en t EN (n & PS & LO) D FO. apply le_n_S in LO.
  assert (VX : viax bs x0 (Datatypes.S n)) by (exists en, s; split; [destruct D; discriminate|exact PS]). apply (fun x => conj x VX) in LO. clear VX. destruct (HOK (Datatypes.S n)) as (x & E2). rewrite lsteps_snoc, PS in E2. cbn [bind] in E2.
  assert (ST : forall y, lstep (LA := plain_lang) Ins c ds bs (CRun [] en s) = Ok y -> steps (Datatypes.S n) x0 = Ok y).
  { intros y E. rewrite lsteps_snoc, PS. exact E. }
  pose proof (ed_pcr _ _ _ _ _ _ _ _ _ EN) as PR.
  assert (TGT : forall x1 a1 a2, en = BBranch -> (pq = QCond x1 a1 a2 \/ (exists v, pq = QCheck v a1 /\ a2 = 0 /\ x1 = eCmp EQ v (EConst (TInt 64) (addr_pc_base c a1)))) ->
    exists z y, vev e x1 = Ok (V (TInt 1) z) /\ goto (LA := plain_lang) Ins ds bs (if z =? 0 then a2 else a1) s = Ok y /\ steps (Datatypes.S n) x0 = Ok y).
  { intros x1 a1 a2 -> PQ. cbn [lstep] in E2, ST.
    assert (PB : exists w w', pc_branch c (s_pc s) = Ok (w, a1, a2) /\ vev e x1 = Ok w' /\ rle w w' /\ ty_of w' = TInt 1).
    { destruct PQ as [->|(v & -> & -> & ->)]; destruct (s_pc s) as [w0|b|w0 b1 b2|w0 b]; cbn [pcr] in PR; try contradiction; cbn [pc_branch] in *.
      - destruct PR as ((w' & V1 & RL & TY) & <- & <-). exists w0, w'. auto.
      - destruct PR as ((w' & V1 & RL & TY) & <-). destruct (cmp_sem EQ w0 (V (TInt 64) (addr_pc_base c a1))) as [w| |] eqn:CE; try discriminate.
        destruct (sem2_mono (OCmp EQ) _ _ _ _ _ RL (rle_refl (V (TInt 64) (addr_pc_base c a1))) CE) as (y & SY & RY).
        exists w, y. split; [reflexivity|]. split; [|split; [exact RY|]].
        + unfold vev, eCmp in *. cbn [eval tsize]. rewrite V1, addr_pc_base_trunc. exact SY.
        + eapply (sem2_ty (OCmp EQ)); [|exact SY]. rewrite TY. reflexivity. }
    destruct PB as (w & w' & PB & V1 & RL & TY). rewrite PB in E2, ST. cbn [bind] in E2, ST.
    destruct w as [tw z|tw]; [|discriminate]. apply rle_V in RL. subst w'. cbn [ty_of] in TY. subst tw. cbn [target bind] in E2, ST.
    exists z, x. split; [exact V1|]. split; [exact E2|]. apply ST. exact E2. }
  destruct D as [|v PQ|a t PQ GO|x1 a1 a2 z t PQ IF GO|x1 a1 a2 t o PQ GO1 GO2].
  - exists exitb. split; [reflexivity|]. left. split; [reflexivity|]. exists (Datatypes.S n). split; [|exact LO]. apply ST. reflexivity.
  - exists exitb. split; [reflexivity|]. left. split; [reflexivity|]. exists (Datatypes.S n). split; [|exact LO]. apply ST. subst pq.
    destruct (s_pc s) eqn:PE; cbn [pcr] in PR; try contradiction. cbn [lstep]. rewrite PE. reflexivity.
  - exists t. split; [reflexivity|]. right. exists (Datatypes.S n), a, x. split; [exact GO|]. subst pq. cbn [lstep] in *.
    destruct (s_pc s) eqn:PE; cbn [pcr] in PR; try contradiction. subst a1. cbn [pc_branch bind target Z.eqb] in E2. split; [exact E2|]. split; [apply ST; exact E2|exact LO].
  - exists t. split; [reflexivity|]. right. destruct (TGT x1 a1 a2 eq_refl PQ) as (z' & y & V1 & GT & SS). rewrite (FO _ _ IF) in V1. injection V1 as <-.
    exists (Datatypes.S n), (if z then a1 else a2), y. split; [exact GO|]. split; [|split; [exact SS|exact LO]]. destruct z; exact GT.
  - destruct (TGT x1 a1 a2 eq_refl PQ) as (z' & y & V1 & GT & SS). exists (if z' =? 0 then o else t). split.
    + destruct (Nat.eqb_spec t o) as [Q|]; [subst o; destruct (z' =? 0); reflexivity|]. cbn [next_blk]. unfold pick. rewrite V1. reflexivity.
    + right. exists (Datatypes.S n), (if z' =? 0 then a2 else a1), y. split; [destruct (z' =? 0); assumption|]. auto.
Qed.

(** What follows a piece of code. *)
Lemma entry_next : forall e S p mem t b b' k' e' mem' k, EINV k e S mem -> iseq e p mem (code_of M k) (Ok mem') -> m_term M k = Some t -> next_blk e t = Some (Ok b') ->
  f_bb (l_fn L) k = b -> f_first (l_fn L) b' = Some k' ->
  env_ok A e' -> (forall a, owner own L a <> Some k' -> e' a = e a) ->
  (forall r inc, In (b', r, inc) (l_phis L) -> exists v, In (b, v) inc /\ vev e (v_e v) = Ok (e' (APhi b' r))) ->
  lds_ok c L k' e' (end_slots L e S k) -> PINV 0 k' e' (end_slots L e S k) p mem'.
Proof.
  destruct lw as [LB LN (ET & EC & EF & ES & EL) [LA1 LA2] ND NE BK (kx & XF & XT & XC & (px & XP1 & XP2) & XL)].
  destruct shapes as (SF & SS & SP & SFI & SB).
  intros e S p mem t b b' k' e' mem' k (-> & -> & -> & SO0 & EO0 & RE) IS TM NB BB F1 EO OW PH [LO LY]. rewrite SFI in F1. rewrite SB in BB.
  rewrite ET in TM. injection TM as <-. cbn [next_blk] in NB. injection NB as <-. unfold code_of in IS. rewrite EC in IS. inversion IS; subst. clear IS.
  rewrite (file_bb _ _ EF) in *.
  eapply (enter_blk 0 k' e' _ _ p m0 a0 1 0%nat x0 s0); try eassumption; try reflexivity.
  - eapply (re_branch A own L 0 e S0 _ 0 1); try eassumption; [rewrite SF; assumption|rewrite SS, ES; left; reflexivity|rewrite SFI; assumption].
  - right. auto.
  - split; [|intros r SB1; rewrite (end_sys _ _ _ _ SB1); apply REG0; right; exact SB1].
    intros r MR. rewrite (proj2 shape). assert (SR : seg_regs A e S0 (fun r => rbits (S0 r)) 0 (f_log (m_f M)) r = rbits (S0 r)); [|rewrite SR; apply REG0; left; exact MR].
        unfold seg_regs. revert EL. generalize (f_log (m_f M)). intro l. induction l as [|[o z] l IHl]; intro EL'; cbn [rcell]; [reflexivity|].
        rewrite IHl by (intros ox I0; apply EL'; right; exact I0). destruct (option_eq_dec (file_of o) 0%nat) as [Q|Q]; [|apply cstep_other; left; exact Q].
        destruct (EL' (o, z) (or_introl eq_refl) Q) as (r' & t' & Q'). cbn [fst] in Q'. subst o. cbn [cstep]. destruct (_ && _); reflexivity.
  - apply (rng_le s0 S0 SO0). intros r MR. apply REG0. left. exact MR.
  - discriminate.
Qed.
Lemma call_next : forall lo k e S p mem mem' g x pv k' e' S', PINV lo k e S p mem ->
  iseq e p mem (code_of M k) (Ok mem') -> m_term M k = Some (TCall g x k') -> vev e x = Ok pv ->
  let u := c_ext c g (cpu_of (end_slots L e S k) pv mem') in
  env_ok A e' -> slots_ok A S' -> (forall r, held A r -> rbits (S' r) = u_reg u r) ->
  (forall a, owner own L a <> Some k' -> e' a = e a) -> lds_ok c L k' e' S' -> PINV lo k' e' S' (pc_rv (u_pc u)) (u_mem u).
Proof.
  destruct lw as [LB LN (ET & EC & EF & ES & EL) [LA1 LA2] ND NE BK (kx & XF & XT & XC & (px & XP1 & XP2) & XL)].
  destruct shapes as (SF & SS & SP & SFI & SB).
  intros lo k e S p mem mem' g x pv k' e' S' (EO0 & R & RE & [PI|(KX & _)]) IS TM VX u EO SO RU OW [LO LY].
  - destruct (piece_out _ _ _ _ _ _ _ _ EO0 RE PI IS) as [s mem1 pq f k1 b l segs en q' m' m2 y m4 EN TM' IP PS P' XK XV (n & XPC & MC) SR LS CT EX' EX|s mem1 pq b EN TM' _ _|s mem1 pq b en t EN TM' _ _ _ D _].
      * rewrite TM in TM'. injection TM' as -> -> <-. destruct EN as [ER EM EG ERN ESY EP (w & w' & PW & VW & RL & TY)]. injection ER as <-. rewrite VX in VW. injection VW as ->.
        destruct (POS_step bs x0 HOK _ _ _ _ _ _ PS) as (s' & R1 & PS'). cbn [run1] in R1. rewrite PW in R1. cbn [bind] in R1. injection R1 as <-.
        assert (CL : cle (c_ext c f (to_cpu s w)) u).
        { apply EXT. split; [|split; [|exact EM]].
          - cbn [to_cpu cpu_of u_pc]. destruct w as [tw z|tw]; [apply rle_V in RL; subst w'; intros ? Q; exact Q|intros ? Q; discriminate].
          - intros rg [MR|SB1]; cbn [to_cpu cpu_of u_reg]; [eapply ole_trans; [apply EG; assumption|eapply sync; eassumption]|].
            rewrite (end_sys _ _ _ _ SB1). apply ESY. exact SB1. }
        destruct CL as (CP & CR & CM).
        assert (RG : forall rg, held A rg -> ole (s_reg (of_cpu s (c_ext c f (to_cpu s w))) rg) (rbits (S' rg))).
        { intros rg MR. rewrite RU by assumption. apply CR. assumption. }
        split; [assumption|]. exists (fun r => rbits (S' r)). split; [eapply (re_call A own L k e S R (Pack k b (Some k'))); try eassumption; try reflexivity; rewrite SP; assumption|].
        left. destruct (st_pack _ (proj2 (built_BI _ _ _ LB)) _ IP) as (_ & BP & _ & NX). destruct (NX k' eq_refl) as (_ & _ & BN). cbn [pk_file pk_bb] in BP, BN.
        split; [rewrite BN, <- BP; exact (proj1 PI)|]. split; [exact LY|]. exists q', m', (of_cpu s (c_ext c f (to_cpu s w))). split.
        -- intros r IS'. assert (EX'' := ex_code _ _ EX' k'). destruct EX'' as (l2 & EC' & _). rewrite MC in EC'.
           unfold code_of in IS'. rewrite EC', rev_app_distr in IS'. cbn [rev app] in IS'.
           assert (NV : e' (AVar n (TInt 64)) = pc_rv (u_pc u) /\ iseq e' (pc_rv (u_pc u)) (u_mem u) (rev l2) r).
           { inversion IS' as [|? ? ? xs ? ? ST EV IS2| |]; subst; try discriminate. cbn [istep] in ST. injection ST as <- <-. split; [apply EV; left; reflexivity|exact IS2]. }
           destruct NV as [NV IS2]. split.
           ++ split; try assumption.
              ** intros rg MR. rewrite SR. apply RG. left. assumption.
              ** intros rg z MR Q. eapply rng_le; try eassumption. intros r' MR'. apply RG. left. exact MR'.
              ** intros y' v Q. rewrite XV in Q. discriminate.
              ** intros v Q. rewrite XPC in Q. injection Q as <-. cbn [of_cpu s_pc pcr]. exists (pc_rv (u_pc u)). unfold vev. cbn [eval]. rewrite NV. split; [reflexivity|].
                 split; [|destruct (u_pc u); reflexivity]. destruct (u_pc (c_ext c f (to_cpu s w))) as [z|]; [rewrite (CP z eq_refl); apply rle_refl|].
                 right. destruct (u_pc u); reflexivity.
              ** intros rg SB1. apply RG. right. exact SB1.
           ++ exists (rev l2). unfold code_of. rewrite EC', MC, rev_app_distr. split; [reflexivity|exact IS2].
        -- right. exists l, segs, en, m2, y, m4. auto.
      * rewrite TM in TM'. discriminate.
      * rewrite TM in TM'. injection TM' as <-. inversion D. destruct (Nat.eqb t o); discriminate.
  - rewrite KX in XF. injection XF as ->. rewrite XT in TM. discriminate.
Qed.
Lemma branch_next : forall lo k e S p mem mem' t b b' k' e', PINV lo k e S p mem ->
  (forall x z, In (k, x, z) (m_fold M) -> vev e x = Ok (V (TInt 1) (b2z z))) ->
  iseq e p mem (code_of M k) (Ok mem') -> m_term M k = Some t -> next_blk e t = Some (Ok b') ->
  f_bb (l_fn L) k = b -> f_first (l_fn L) b' = Some k' ->
  env_ok A e' -> (forall a, owner own L a <> Some k' -> e' a = e a) ->
  (forall r inc, In (b', r, inc) (l_phis L) -> exists v, In (b, v) inc /\ vev e (v_e v) = Ok (e' (APhi b' r))) ->
  (b' = exitb -> exists x, m_pcx M b = Some x /\ vev e x = Ok (e' (AVar npc (TInt 64)))) ->
  lds_ok c L k' e' (end_slots L e S k) -> PINV (Datatypes.S lo) k' e' (end_slots L e S k) p mem'.
Proof.
  destruct lw as [LB LN (ET & EC & EF & ES & EL) [LA1 LA2] ND NE BK (kx & XF & XT & XC & (px & XP1 & XP2) & XL)].
  destruct shapes as (SF & SS & SP & SFI & SB).
  intros lo k e S p mem mem' t b b' k' e' (EO0 & R & RE & [PI|(KX & _)]) FO IS TM NB BB F1 EO OW PH PX [LO LY]; rewrite SFI in F1; rewrite SB in BB.
  - destruct (piece_out _ _ _ _ _ _ _ _ EO0 RE PI IS) as [s mem1 pq f k1 b1 l segs en q' m' m2 y m4 EN TM' IP PS P' XK XV XPC SR LS CT EX' EX|s mem1 pq b1 EN TM' _ _|s mem1 pq b1 en t1 EN TM' FB MX PS D SU].
      * rewrite TM in TM'. injection TM' as ->. discriminate.
      * rewrite TM in TM'. injection TM' as ->. discriminate.
      * rewrite TM in TM'. injection TM' as <-. rewrite (file_bb _ _ FB) in BB. subst b1.
        destruct (end_step _ _ _ _ _ _ _ _ _ _ _ _ EN PS D FO) as (b2 & NB2 & GO). rewrite NB in NB2. injection NB2 as <-.
        assert (RE' : reach A own L k' e' (end_slots L e S k) (seg_regs A e S R k (f_log (l_fn L)))).
        { eapply (re_branch A own L k e S R b b'); try eassumption; [rewrite SF; assumption| |rewrite SFI; assumption].
          rewrite SS. apply SU. destruct t as [b2|x t' o|f x k2|x]; cbn [next_blk] in NB; try discriminate.
          - injection NB as <-. right. reflexivity.
          - left. exists x, t', o. split; [reflexivity|]. unfold pick in NB. destruct (vev e x) as [[[w| | | |] z|[w| | | |]]| |]; cbn [bind] in NB; try discriminate.
            all: destruct w as [|[w|w|]|w]; try discriminate. injection NB as <-. destruct (z =? 0); auto. }
        rewrite (proj2 shape) in RE'. destruct EN as [ER EM EG ERN ESY EP (w & w' & PW & VW & RL & TY)]. injection ER as <-.
        assert (PCX : b' = exitb -> exists v, pc_value c (s_pc s) 0 = Ok v /\ rle v (e' (AVar npc (TInt 64)))).
        { intros Q. destruct (PX Q) as (x & MX' & VX). rewrite MX in MX'. injection MX' as <-. rewrite VW in VX. injection VX as ->. exists w. auto. }
        assert (RI : regs_in s (end_slots L e S k) (seg_regs A e S R k (f_log (m_f M)))).
        { split; [exact EG|]. intros rg SB1. rewrite (end_sys _ _ _ _ SB1). apply ESY. exact SB1. }
        destruct GO as [[-> (n & ST & LN' & VX)]|(n & a & y & GO & GT & ST & LN' & VX)].
        -- split; [assumption|]. eexists. split; [exact RE'|]. right. split; [assumption|].
           destruct (PCX eq_refl) as (v & PV & RV). exists n, s, v. auto 10.
        -- eapply (enter_blk (Datatypes.S lo) k' e' _ _ p mem' a b' n y s); eassumption.
  - rewrite KX in XF. injection XF as ->. rewrite XT in TM. injection TM as <-. discriminate.
Qed.
Lemma PINV_le : forall lo lo' k e S p mem, (lo' <= lo)%nat -> PINV lo k e S p mem -> PINV lo' k e S p mem.
Proof.
  intros lo lo' k e S p mem LE (EO & R & RE & CS). split; [assumption|]. exists R. split; [assumption|].
  destruct CS as [(BN & SY & q & m & s & XA & [(segs & en & m4 & (n & PS & LN) & E)|(l & segs & en & m2 & x & m4 & (n & i & d & s1 & pre & PS & RN & LN) & E)])|(KX & n & s & v & ST & SM & SR & PV & RV & LN)].
  - left. split; [exact BN|]. split; [exact SY|]. exists q, m, s. split; [exact XA|]. left. exists segs, en, m4. split; [|exact E]. exists n. split; [exact PS|eapply Nat.le_trans; eassumption].
  - left. split; [exact BN|]. split; [exact SY|]. exists q, m, s. split; [exact XA|]. right. exists l, segs, en, m2, x, m4. split; [|exact E]. exists n, i, d, s1, pre. split; [exact PS|]. split; [exact RN|eapply Nat.le_trans; eassumption].
  - right. split; [exact KX|]. exists n, s, v. repeat (split; [assumption|]). split; [eapply Nat.le_trans; [eassumption|exact (proj1 LN)]|exact (proj2 LN)].
Qed.
Lemma run_inv : forall k e S p mem, irun k e S p mem -> EINV k e S mem \/ PINV 0 k e S p mem.
Proof.
  intros k e S p mem X. induction X as [e EO SO [LO LY]|k e S p mem mem' g x pv k' e' S' X IH IS TM VX u EO SO RU OW LO|k e S p mem mem' t b b' k' e' X IH IS TM NB BB F1 EO OW PH PX LO].
  - left. repeat (split; [reflexivity || assumption|]). apply re_entry; assumption.
  - destruct IH as [(-> & _)|IH]; [rewrite (proj1 (lw_entry _ _ _ _ _ _ _ _ _ lw)) in TM; discriminate|]. right. eapply call_next; eassumption.
  - right. destruct IH as [IH|IH]; [eapply entry_next; eassumption|]. eapply PINV_le; [apply Nat.le_0_l|]. eapply branch_next; try eassumption. intros. eapply FOLD; eassumption.
Qed.
(** No execution of the emitted function fails, and what it returns with is what the
    builder semantics ends with. *)
Theorem lowered_sim_at :
  ~ ifail c M npc L S0 p0 m0 /\
  forall k S p mem, ireturn_at c M npc L S0 p0 m0 k S p mem -> exists n s v, steps n x0 = Ok (COut s) /\ s_mem s = mem /\
    (forall r, held A r -> ole (s_reg s r) (rbits (S r))) /\ pc_value c (s_pc s) 0 = Ok v /\ rle v p /\
    ((f_first (m_f M) exitb = Some k /\ viax bs x0 n) \/
     (f_first (m_f M) exitb <> Some k /\ exists n', n = Datatypes.S n' /\ exists s', steps n' x0 = Ok (CRun [] BRet s'))).
Proof.
  pose proof lw as W. destruct W as [LB LN (ET & EC & EF & ES & EL) [LA1 LA2] ND NE BK (kx & XF & XT & XC & (px & XP1 & XP2) & XL)]. split.
  - intros (k & e & S & p & mem & X & FL). pose proof (run_inv _ _ _ _ _ X) as CS.
    assert (EMP : m_code M k = [] -> forall r, iseq e p mem (code_of M k) r -> r = Ok mem).
    { intros Q r IS. unfold code_of in IS. rewrite Q in IS. inversion IS. reflexivity. }
    destruct CS as [(-> & _)|(EO & R & RE & [PI|(KX & _)])].
    + destruct FL as [(r & IS & NO)|(mem' & IS & FL)]; [exact (NO _ (EMP EC _ IS))|]. rewrite ET in FL. exact (FL _ eq_refl).
    + destruct FL as [(r & IS & NO)|(mem' & IS & FL)].
      * destruct (piece_out _ _ _ _ _ _ _ _ EO RE PI IS) as [? ? ? ? ? ? ? ? ? ? ? ? ? ? EN|? ? ? ? EN|? ? ? ? ? ? EN]; exact (NO _ (ed_r _ _ _ _ _ _ _ _ _ EN)).
      * destruct (piece_out _ _ _ _ _ _ _ _ EO RE PI IS) as [s mem1 pq f k1 b1 l segs en q' m' m2 y m4 EN TM' IP PS P' XK XV XPC SR LS CT EX' EX|s mem1 pq b1 EN TM' _ _|s mem1 pq b1 en t1 EN TM' FB MX PS D SU]; rewrite TM' in FL.
        -- destruct EN as [? ? ? ? ? ? (w & w' & _ & VW & _)]. exact (FL _ VW).
        -- destruct EN as [? ? ? ? ? ? (w & w' & _ & VW & _)]. exact (FL _ VW).
        -- destruct (end_step _ _ _ _ _ _ _ _ _ _ _ _ EN PS D (fun x z => FOLD _ _ _ _ _ _ _ _ X IS)) as (b2 & NB2 & _).
           destruct t1; try discriminate; exact (FL _ NB2).
    + rewrite KX in XF. injection XF as <-. destruct FL as [(r & IS & NO)|(mem' & IS & FL)]; [exact (NO _ (EMP XC _ IS))|]. rewrite XT in FL. exact (FL _ eq_refl).
  - intros k S p mem (e & S1 & p1 & m1 & x & X & IS & TM & VX & ->). pose proof (run_inv _ _ _ _ _ X) as CS.
    destruct CS as [(-> & _)|(EO & R & RE & [PI|(KX & n & s & v & ST & SM & SR & PV & RV & _ & VI)])].
    + rewrite ET in TM. discriminate.
    + destruct (piece_out _ _ _ _ _ _ _ _ EO RE PI IS) as [s mem1 pq f k1 b1 l segs en q' m' m2 y m4 EN TM' IP PS P' XK XV XPC SR LS CT EX' EX|s mem1 pq b1 EN TM' IP PS|s mem1 pq b1 en t1 EN TM' FB MX PS D SU];
        rewrite TM in TM'; injection TM' as TE.
      * discriminate.
      * subst x. destruct EN as [ER EM EG ERN ESY EP (w & w' & PW & VW & RL & TY)]. injection ER as <-. rewrite VX in VW. injection VW as ->.
        destruct (POS_step bs x0 HOK _ _ _ _ _ _ PS) as (s' & R1 & PS'). cbn [run1] in R1. injection R1 as <-. apply POS_nil in PS'. destruct PS' as (n & ST & _).
        exists (Datatypes.S n), (with_ret s true), w. split; [rewrite lsteps_snoc, ST; reflexivity|]. split; [exact EM|]. split; [|split; [exact PW|split; [exact RL|right; split; [|eauto]]]].
        2: { intro Q. apply (proj1 PI). exact (proj1 (proj2 (st_first _ (proj2 (built_BI _ _ _ LB)) _ _ Q))). }
        intros r [MR|SB1]; [eapply ole_trans; [apply EG; assumption|eapply sync; eassumption]|]. rewrite (end_sys _ _ _ _ SB1). apply ESY. exact SB1.
      * subst t1. inversion D. destruct (Nat.eqb t o); discriminate.
    + rewrite KX in XF. injection XF as <-. unfold code_of in IS. rewrite XC in IS. inversion IS; subst. rewrite XT in TM. injection TM as <-.
      unfold vev in VX. cbn [eval] in VX. injection VX as <-. exists n, s, v. split; [exact ST|]. split; [reflexivity|]. split; [|auto 8].
      destruct SR as [SR SY]. intros r [MR|SB1]; [|rewrite (end_sys _ _ _ _ SB1); apply SY; exact SB1]. eapply ole_trans; [apply SR; assumption|]. destruct px as [kp bp np]. cbn [pk_file] in *. 
      assert (Q : seg_regs A e S1 R kp (f_log (m_f M)) r = R r).
      { unfold seg_regs. clear - XL. revert XL. generalize (f_log (m_f M)). intro l. induction l as [|[o z] l IHl]; intro XL; [reflexivity|]. cbn [rcell].
        rewrite IHl by (intros ox I0; apply XL; right; exact I0). apply cstep_other. left. exact (XL (o, z) (or_introl eq_refl)). }
      rewrite <- Q. eapply sync; eassumption.
Qed.
Theorem lowered_sim :
  ~ ifail c M npc L S0 p0 m0 /\
  forall S p mem, ireturn c M npc L S0 p0 m0 S p mem -> exists n s v, steps n x0 = Ok (COut s) /\ s_mem s = mem /\
    (forall r, held A r -> ole (s_reg s r) (rbits (S r))) /\ pc_value c (s_pc s) 0 = Ok v /\ rle v p.
Proof.
  destruct lowered_sim_at as [NF RT]. split; [exact NF|]. intros S p mem (k & IR). destruct (RT k S p mem IR) as (n & s & v & X1 & X2 & X3 & X4 & X5 & _).
  exists n, s, v. auto.
Qed.
End Main.
End Sem.
