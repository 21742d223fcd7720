(** The emitted function can be executed: from every state, with values for all its
    instructions, up to a return if the builder semantics ends. *)

From Coq Require Import ZArith Lia ZifyBool List Bool Arith Cantor.
From Verif Require Import CfgSemOk CfgFinish Prop_Cfg Bits IR IrMono IrWf Facet Dsl RegFile RegFileOk RegScript Layout Cfg CfgHeap CfgLog CfgBuild CfgSem Decode LiftFn LiftSim Lower LowerOk LowerSem SsaHeap Ssa.
Import ListNotations.
Open Scope Z_scope.

Section Verify.
Context `{FpuOps}.
Variable c : cenv.
Notation A := (c_arch c).

(** ** Values for a piece of code *)
Notation defs i := (map fst (tdefs i)).
Definition tw (x : rv) (t : ty) : Prop := ty_of x = t /\ wf_rv x.
Definition akey (a : atom) (q : atom * rv) : bool :=
  match a, fst q with AVar n t, AVar n' t' => Nat.eqb n n' && ty_eqb t t' | _, _ => false end.
Definition upds (e : env) (xs : list (atom * rv)) : env := fun a => match find (akey a) xs with Some q => snd q | None => e a end.
Lemma sty_ok : forall e x t v, env_ok A e -> sty c x t -> vev e x = Ok v -> tw v t.
Proof. intros e x t v EO [_ T] E. destruct (T e v EO E). split; assumption. Qed.
Lemma load_tw : forall m t a v, bytes_ty t = true -> load_rv m t a = Ok v -> tw v t.
Proof.
  intros m t a v B E. apply andb_prop in B. destruct B as [B1 B2]. pose proof (twf_size _ B1) as SZ. apply Z.eqb_eq in B2.
  destruct a as [[] z|[]]; try discriminate. cbn [load_rv] in E. injection E as <-. split; [reflexivity|]. cbn [wf_rv].
  pose proof (load_bytes_range (nbytes t) m z) as LR. unfold nbytes in *. rewrite Z2Nat.id in LR by (apply Z.div_pos; lia).
  assert (Q : 8 * (tsize t / 8) = tsize t) by (pose proof (Z.div_mod (tsize t) 8 ltac:(lia)); lia). rewrite Q in LR. exact LR.
Qed.
Definition aid (a : atom) : nat := match a with AVar n _ => n | _ => 0%nat end.
Definition goodx (q : atom * rv) : Prop := exists n t, fst q = AVar n t /\ tw (snd q) t.
Lemma istep_tw : forall e p m i xs m', env_ok A e -> tw p (TInt 64) -> styped c i -> istep e p m i = Ok (xs, m') ->
  map (fun q => aid (fst q)) xs = defs i /\ Forall goodx xs.
Proof.
  intros e p m i xs m' EO PO T E.
  assert (ONE : forall n t v, xs = [(AVar n t, v)] -> defs i = [n] -> tw v t -> map (fun q => aid (fst q)) xs = defs i /\ Forall goodx xs).
  { intros n t v -> D X. rewrite D. split; [reflexivity|]. constructor; [exists n, t; auto|constructor]. }
  assert (NONE : xs = [] -> defs i = [] -> map (fun q => aid (fst q)) xs = defs i /\ Forall goodx xs).
  { intros -> D. rewrite D. split; [reflexivity|constructor]. }
  destruct i as [n t x|n t a|v a|n w o a v|n n' w a k v|a v k|n]; cbn [istep styped] in *.
  - destruct (vev e x) as [v| |] eqn:V; try discriminate. injection E as <- <-. eapply ONE; try reflexivity. eapply sty_ok; eassumption.
  - destruct (vev e a) as [q| |]; try discriminate. cbn [bind] in E. destruct (load_rv m t q) as [v| |] eqn:LD; try discriminate. injection E as <- <-.
    eapply ONE; try reflexivity. eapply load_tw; [apply T|eassumption].
  - destruct (vev e v); try discriminate. destruct (vev e a); try discriminate. cbn [bind] in E. destruct (store_rv _ _ _); try discriminate. injection E as <- <-. auto.
  - destruct T as (_ & T1 & T2). destruct (vev e a) as [q| |]; try discriminate. destruct (vev e v) as [y| |] eqn:V; try discriminate. cbn [bind] in E.
    destruct (sty_ok _ _ _ _ EO T1 V) as [TY _]. unfold rmw_mem in E. destruct y as [ty z|ty]; cbn [ty_of] in TY; subst ty; [|discriminate].
    destruct (load_rv m (TInt w) q) as [old| |] eqn:LD; try discriminate. cbn [bind] in E. pose proof (load_tw _ _ _ _ T2 LD) as TO.
    destruct old as [to oz|to]; [|discriminate]. destruct (store_rv _ _ _) as [m2| |]; try discriminate. cbn [bind] in E. injection E as <- <-. eapply ONE; try reflexivity. exact TO.
  - destruct T as (_ & T1 & _ & T2). destruct (vev e a) as [q| |]; try discriminate. destruct (vev e k) as [kv| |] eqn:V; try discriminate. destruct (vev e v) as [vv| |]; try discriminate. cbn [bind] in E.
    destruct (sty_ok _ _ _ _ EO T1 V) as [TY _]. unfold cas_mem in E. destruct (ty_eqb (ty_of kv) (ty_of vv)); [|discriminate].
    destruct kv as [ty z|ty]; cbn [ty_of] in TY; subst ty; [|discriminate]. destruct vv as [tv vz|tv]; [|discriminate].
    destruct (load_rv m (TInt w) q) as [old| |] eqn:LD; try discriminate. cbn [bind] in E. pose proof (load_tw _ _ _ _ T2 LD) as TO.
    destruct old as [to oz|to]; [|discriminate].
    assert (Q : xs = [(AVar n (TInt w), IR.V to oz); (AVar n' (TInt 1), IR.V (TInt 1) (b2z (oz =? z)))]).
    { destruct (oz =? z); cbn [bind] in E; [|injection E as <- <-; reflexivity]. destruct (store_rv _ _ _); cbn [bind] in E; try discriminate. injection E as <- <-. reflexivity. }
    rewrite Q. split; [reflexivity|]. constructor; [exists n, (TInt w); auto|]. constructor; [|constructor]. exists n', (TInt 1). split; [reflexivity|]. split; [reflexivity|]. cbn [wf_rv tsize snd]. apply inr_b2z. lia.
  - destruct (vev e a); try discriminate. destruct (vev e v); try discriminate. destruct (vev e k); try discriminate. cbn [bind] in E. destruct (set_mem _ _ _ _); try discriminate. injection E as <- <-. auto.
  - injection E as <- <-. eapply ONE; try reflexivity. exact PO.
Qed.
Lemma upds_ok : forall xs e, env_ok A e -> Forall goodx xs -> env_ok A (upds e xs).
Proof.
  intros xs e EO F a. unfold upds. destruct (find (akey a) xs) as [q|] eqn:FD; [|apply EO]. apply find_some in FD. destruct FD as [I0 K].
  rewrite Forall_forall in F. destruct (F _ I0) as (n & t & EQ & X). unfold akey in K. destruct a as [n' t'|b r|u r t']; try discriminate. rewrite EQ in K.
  apply andb_prop in K. destruct K as [_ K]. apply ty_eqb_eq in K. subst t'. exact X.
Qed.
Lemma upds_at : forall xs e a x, NoDup (map (fun q => aid (fst q)) xs) -> Forall goodx xs -> In (a, x) xs -> upds e xs a = x.
Proof.
  intros xs e a x ND F I0. unfold upds. assert (Q : find (akey a) xs = Some (a, x)); [|rewrite Q; reflexivity].
  induction xs as [|q xs IH]; [destruct I0|]. cbn [map] in ND. inversion ND as [|? ? NI ND']; subst. inversion F as [|? ? G F']; subst. cbn [find].
  destruct I0 as [->|I0].
  - destruct G as (n & t & EQ & _). cbn [fst] in EQ. subst a. unfold akey. cbn [fst]. rewrite Nat.eqb_refl, ty_eqb_refl. reflexivity.
  - destruct (akey a q) eqn:K; [|auto]. destruct NI. unfold akey in K. destruct a as [n t|b r|u r t]; try discriminate. destruct (fst q) as [n' t'|b r|u r t']; try discriminate.
    apply andb_prop in K. destruct K as [K _]. apply Nat.eqb_eq in K. subst n'. cbn [aid]. change n with ((fun q : atom * rv => aid (fst q)) (AVar n t, x)). apply in_map. exact I0.
Qed.
Lemma upds_not : forall xs e a, (forall n t, a = AVar n t -> ~ In n (map (fun q => aid (fst q)) xs)) -> upds e xs a = e a.
Proof.
  intros xs e a N. unfold upds. destruct (find (akey a) xs) as [q|] eqn:FD; [|reflexivity]. apply find_some in FD. destruct FD as [I0 K].
  unfold akey in K. destruct a as [n t|b r|u r t]; try discriminate. destruct (fst q) as [n' t'|b r|u r t'] eqn:EQ; try discriminate.
  apply andb_prop in K. destruct K as [K _]. apply Nat.eqb_eq in K. subst n'. destruct (N n t eq_refl). apply in_map_iff. exists q. rewrite EQ. auto.
Qed.
(** [e'] differs from [e] only in the results [ns]. *)
Definition but (ns : list nat) (e e' : env) : Prop := forall a, (forall n t, a = AVar n t -> ~ In n ns) -> e' a = e a.
Lemma istep_ext : forall e e' p m i, (forall x, In x (iops i) -> vev e' x = vev e x) -> istep e' p m i = istep e p m i.
Proof.
  intros e e' p m i O. destruct i as [n t x|n t a|v a|n w o a v|n n' w a k v|a v k|n]; cbn [istep iops In] in *; rewrite ?O by tauto; reflexivity.
Qed.
(** Instructions, newest first, after the instructions [pre]. *)
Lemma ucode_suf : forall m k l pre, ucode c m k (l ++ pre) -> ucode c m k pre.
Proof. intros m k. induction l as [|i l IH]; intros pre U; [exact U|]. apply IH. apply U. Qed.
Lemma dnums_app : forall l l2, dnums (l ++ l2) = dnums l ++ dnums l2.
Proof. intros. unfold dnums. rewrite flat_map_app, map_app. reflexivity. Qed.
Lemma dnums_cons : forall i l, dnums (i :: l) = defs i ++ dnums l.
Proof. intros. unfold dnums. cbn [flat_map]. apply map_app. Qed.
Lemma ucode_new : forall m k l pre n, ucode c m k (l ++ pre) -> In n (dnums pre) -> ~ In n (dnums l).
Proof.
  intros m k. induction l as [|i l IH]; intros pre n U I0 I1; [exact I1|]. rewrite dnums_cons in I1. cbn [app ucode] in U. destruct U as (_ & _ & _ & U4 & U5).
  apply in_app_or in I1. destruct I1 as [I1|I1]; [|exact (IH _ _ U5 I0 I1)]. destruct (U4 n I1) as (_ & _ & U6). apply U6. rewrite dnums_app. apply in_or_app. right. exact I0.
Qed.
Lemma dnums_rev : forall l n, In n (dnums (rev l)) <-> In n (dnums l).
Proof.
  intros l n. unfold dnums. rewrite !in_map_iff. split; intros (x & E & I0); exists x; (split; [exact E|]); apply in_flat_map; apply in_flat_map in I0; destruct I0 as (i & I0 & I1); exists i; (split; [|exact I1]); apply in_rev; [exact I0|rewrite rev_involutive; exact I0].
Qed.
Lemma code_exec : forall M k l pre e p m, ucode c M k (rev l ++ pre) -> env_ok A e -> tw p (TInt 64) -> exists e' r, iseq e' p m l r /\ env_ok A e' /\ but (dnums l) e e'.
Proof.
  intros M k. induction l as [|i l IH]; intros pre e p m VC EO PO.
  - exists e, (Ok m). split; [constructor|]. split; [assumption|]. intros a _. reflexivity.
  - cbn [rev] in VC. rewrite <- app_assoc in VC. cbn [app] in VC. pose proof (ucode_suf _ _ _ _ VC) as U. cbn [ucode] in U. destruct U as (V1 & V2 & ND & V4 & V5).
    destruct (istep e p m i) as [[xs m']| |] eqn:ST.
    2: { exists e, UB. split; [apply is_ub; assumption|]. split; [assumption|]. intros a _. reflexivity. }
    2: { exists e, TyErr. split; [apply is_ty; assumption|]. split; [assumption|]. intros a _. reflexivity. }
    destruct (istep_tw _ _ _ _ _ _ EO PO V2 ST) as [DX GX].
    destruct (IH (i :: pre) (upds e xs) p m' VC (upds_ok _ _ EO GX) PO) as (e' & r & IS & EO' & B). exists e', r.
    assert (NI : forall n, In n (defs i) -> ~ In n (dnums l)).
    { intros n I1 I2. apply dnums_rev in I2. revert I2. eapply ucode_new; [exact VC|]. rewrite dnums_cons. apply in_or_app. left. exact I1. }
    assert (B' : but (dnums (i :: l)) e e').
    { rewrite dnums_cons. intros a N. rewrite B, upds_not; [reflexivity|..]; intros n t Q I0; apply (N n t Q); apply in_or_app; [left; rewrite <- DX; assumption|right; assumption]. }
    split; [|split; [assumption|exact B']].
    apply (is_ok _ _ _ _ _ xs m'); [| |exact IS].
    + rewrite <- ST. apply istep_ext. intros x I0. apply vev_ain. eapply ain_mono; [|exact (V1 x I0)]. intros a UA. apply B'. intros n t -> I1. cbn [Us usable] in UA. destruct UA as [[_ UA]|[NE _]].
      * assert (UD : In n (dnums pre)) by (unfold dnums; apply in_map_iff; exists (n, t); auto). rewrite dnums_cons in I1. apply in_app_or in I1. destruct I1 as [I1|I1].
        -- destruct (V4 n I1) as (_ & _ & X). exact (X UD).
        -- apply dnums_rev in I1. revert I1. eapply ucode_new; [exact VC|]. rewrite dnums_cons. apply in_or_app. right. exact UD.
      * apply NE. apply dnums_rev in I1. cbn [rev] in I1. assert (VC2 : ucode c M k (rev l ++ i :: pre)) by exact VC. rewrite dnums_app in I1. apply in_app_or in I1. destruct I1 as [I1|I1].
        -- apply (ucode_nx c M k (rev l ++ i :: pre) n VC). rewrite dnums_app. apply in_or_app. left. exact I1.
        -- apply (V4 n). rewrite dnums_cons in I1. cbn [dnums flat_map map] in I1. rewrite app_nil_r in I1. exact I1.
    + intros a x I0. rewrite B.
      * apply upds_at; [rewrite DX; exact ND|exact GX|exact I0].
      * intros n t -> I1. apply (NI n); [|exact I1]. rewrite <- DX. change n with ((fun q : atom * rv => aid (fst q)) (AVar n t, x)). apply in_map. exact I0.
Qed.
End Verify.

Lemma measure_lt : forall F N lo lo' k k' : nat, (lo < N -> k < F -> k' < F -> (lo < lo' \/ lo = lo' /\ k < k') ->
  (N - lo') * Datatypes.S F + (F - k') < (N - lo) * Datatypes.S F + (F - k))%nat.
Proof.
  intros F N lo lo' k k' L1 L2 L3 [L4|[<- L4]]; [|lia]. remember (N - lo')%nat as a. remember (N - lo)%nat as b. assert (Q : (a + 1 <= b)%nat) by lia.
  assert (Q2 : ((a + 1) * Datatypes.S F <= b * Datatypes.S F)%nat) by (apply Nat.mul_le_mono_r; exact Q). lia.
Qed.

(** ** Executions *)
Section Ex.
Context `{FpuOps}.
Variable c : cenv.
Notation A := (c_arch c).
Variable Ins : Type.
Variable ds : dst Ins.
Variable a0 : Z.
Variable cfold : nat -> exp atom -> option bool.
Variable gcache : nat -> bool.
Variable bs : list (lblock (LA := plain_lang) Ins).
Variable M : em.
Variable npc : nat.
Variable L : lifted.
Variable is_undef : value -> bool.
Variable fuel : nat.
Variable ord : list nat.
Hypothesis LOW : lower c Ins ds a0 cfold gcache bs = Some (M, npc).
Hypothesis US : undef_sound A is_undef.
Hypothesis AB : all_blocks (m_f M) ord.
Hypothesis FIN : Cfg.finish A is_undef fuel (m_f M) ord = Some L.
Hypothesis EXT : ext_ok c.
(** External functions leave values in the registers that fit them. *)
Definition cpu_rng (u : cpu) : Prop := forall r z, held A r -> u_reg u r = Some z -> inr (native_size A r) z.
Definition ext_rng : Prop := forall g u, cpu_rng u -> cpu_rng (c_ext c g u).
Hypothesis ERN : ext_rng.
Variable S0 : slots.
Variable p0 : rv.
Variable m0 : bytes.
Hypothesis SO0 : slots_ok A S0.
Hypothesis PO0 : tw p0 (TInt 64).
Notation irun := (irun c M npc L S0 p0 m0).
Hypothesis FOLD : fold_ok c M npc L S0 p0 m0.
Variable s0 : st.
Variable x0 : conf (LA := plain_lang) Ins.
Notation steps := (lsteps (LA := plain_lang) Ins c ds bs).
Notation CRun := (CRun (LA := plain_lang) Ins).
Notation COut := (COut (LA := plain_lang) Ins).
Hypothesis X0 : goto (LA := plain_lang) Ins ds bs a0 s0 = Ok x0.
Hypothesis HOK : forall n, exists x, steps n x0 = Ok x.
Hypothesis MEM0 : s_mem s0 = m0.
Hypothesis REG0 : forall r, held A r -> ole (s_reg s0 r) (rbits (S0 r)).
Notation PINV := (PINV c Ins ds a0 cfold gcache bs M npc L x0).
Notation lw := (lw c Ins ds a0 cfold gcache bs M npc LOW).
Notation shapes := (shapes c Ins ds a0 cfold gcache bs M npc L is_undef fuel ord LOW US AB FIN).

Notation ls := (lower_si c Ins ds a0 cfold gcache bs M npc LOW).
Lemma ver_npc : f_first (m_f M) exitb = Some (own npc).
Proof. apply ls. Qed.
Lemma struct_M : BS (m_f M).
Proof. exact (proj2 (built_BI _ _ _ (lw_built _ _ _ _ _ _ _ _ _ lw))). Qed.

Lemma sys_nty : forall A0 r, sysb A0 r = true -> nty A0 r = TInt 64.
Proof.
  intros A0 r SB. destruct A0; cbn [sysb] in SB; try discriminate SB; [apply orb_prop in SB; destruct SB as [SB|SB]|]; apply areg_eqb_eq in SB; subst r; reflexivity.
Qed.
(** Values with which the code of [k'] can be executed, from values [e1] for all that
    does not belong to it. *)
Lemma startup : forall k' e1 p mem S', (k' < f_n (m_f M))%nat -> env_ok A e1 -> tw p (TInt 64) -> (forall r, e1 (ASlot k' r (nty A r)) = S' r) ->
  exists e2 r, iseq e2 p mem (code_of M k') r /\ env_ok A e2 /\ (forall a, owner own L a <> Some k' -> e2 a = e1 a) /\
    (forall b r, e2 (APhi b r) = e1 (APhi b r)) /\ (m_code M k' = [] -> forall a, e2 a = e1 a) /\ lds_ok c L k' e2 S'.
Proof.
  intros k' e1 p mem S' K EO PO SL. pose proof (ls_code _ _ _ ls k') as VC. destruct (code_exec c M k' (code_of M k') [] e1 p mem) as (e2 & r & IS & EO2 & B); [unfold code_of; rewrite rev_involutive, app_nil_r; exact VC|exact EO|exact PO|].
  exists e2, r. split; [exact IS|]. split; [exact EO2|]. split; [|split; [|split]].
  - intros a O. apply B. intros n t -> I0. apply O. cbn [owner]. f_equal. unfold code_of in I0. apply (proj1 (dnums_rev _ _)) in I0. apply (ucode_nx _ _ _ _ _ VC I0).
  - intros b r0. apply B. discriminate.
  - intros Q a. apply B. unfold code_of. rewrite Q. intros n t _ [].
  - split; [|intros r0 SB; rewrite B by discriminate; rewrite <- (SL r0); rewrite (sys_nty _ _ SB); reflexivity].
    intros r0 I0. assert (Q : e2 (ASlot k' r0 (nty A r0)) = S' r0) by (rewrite B by discriminate; apply SL).
    split; [auto|]. intros _. exists [], (seg_stores L k'). split; [reflexivity|exact Q].
Qed.
Lemma next_slot : forall e S' k' ob r, next_env A L e S' k' ob (ASlot k' r (nty A r)) = S' r.
Proof. intros. cbn [next_env]. rewrite Nat.eqb_refl, ty_eqb_refl. reflexivity. Qed.

(** A state from which the code can be executed. *)
Definition ready (lo k : nat) (e : env) (S : slots) (p : rv) (mem : bytes) : Prop :=
  irun k e S p mem /\ PINV lo k e S p mem /\ (exists r, iseq e p mem (code_of M k) r) /\ tw p (TInt 64) /\ (k < f_n (m_f M))%nat.

Lemma pc_rv_tw : forall x, tw (pc_rv x) (TInt 64).
Proof. intros [z|]; (split; [reflexivity|]); [|exact I]. cbn [pc_rv wf_rv tsize]. apply trunc_range. lia. Qed.
(** The registers an external function leaves, as they are in the CPU struct. *)
Definition slots_of (u : cpu) : slots := fun r =>
  if existsb (areg_eqb r) (map fst (reg_slots A)) || sysb A r then match u_reg u r with Some z => V (nty A r) z | None => Poison (nty A r) end else Poison (nty A r).
Lemma slots_of_ok : forall u, cpu_rng u -> slots_ok A (slots_of u) /\ forall r, held A r -> rbits (slots_of u r) = u_reg u r.
Proof.
  intros u RU. split.
  - intro r. unfold slots_of. destruct (existsb _ _ || _) eqn:MR; [|split; [reflexivity|exact I]].
    assert (MR' : held A r). { apply orb_prop in MR. destruct MR as [MR|MR]; [left|right; exact MR]. apply existsb_exists in MR. destruct MR as (r' & I0 & Q). apply areg_eqb_eq in Q. subst r'. exact I0. }
    destruct (u_reg u r) as [z|] eqn:U; (split; [reflexivity|]); [|exact I]. cbn [wf_rv]. rewrite nty_size. eapply RU; eassumption.
  - intros r MR. unfold slots_of. assert (Q : existsb (areg_eqb r) (map fst (reg_slots A)) || sysb A r = true).
    { destruct MR as [MR|MR]; [|rewrite MR; apply orb_true_r]. apply orb_true_intro. left. apply existsb_exists. exists r. split; [exact MR|]. apply areg_eqb_refl. }
    rewrite Q. destruct (u_reg u r); reflexivity.
Qed.

Lemma out_slots : forall k e S R, reach A own L k e S R -> slots_ok A (end_slots L e S k).
Proof.
  intros k e S R RE.
  destruct (finish_finished A own is_undef (m_f M) ord fuel L US (lw_built _ _ _ _ _ _ _ _ _ lw) (lw_n _ _ _ _ _ _ _ _ _ lw) AB FIN) as (fu & m & FD).
  destruct (fin_hyps A own fu (m_f M) m L (lw_n _ _ _ _ _ _ _ _ _ lw) FD) as (H1 & H2 & H3 & H4 & H5 & H6 & H7).
  pose proof (fd_phok _ _ _ _ _ _ FD) as PHO. pose proof (fd_keys _ _ _ _ _ _ FD) as PK. eapply ends_slots; try eassumption. eapply reach_good; eassumption.
Qed.
(** The target of a branch has been built. *)
Lemma target_first : forall a t s y, goes Ins ds M a t -> goto (LA := plain_lang) Ins ds bs a s = Ok y -> exists k', f_first (m_f M) t = Some k'.
Proof.
  intros a t s y GO GT. unfold goto in GT. destruct GO as [[RS ->]|[RS IB]]; rewrite RS in GT.
  - exists (own npc). exact ver_npc.
  - unfold block_at in GT. destruct (find (fun b => lb_addr Ins b =? a) bs) as [b|] eqn:FB; [|discriminate]. 
    apply find_some in FB. destruct FB as [IB' AE]. apply Z.eqb_eq in AE. subst a.
    destruct (lw_blk _ _ _ _ _ _ _ _ _ lw b IB') as (m & t' & m3 & RS' & IB2 & P3 & F1' & _).
    assert (TT : t' = t) by (eapply nodup_key; [exact (lw_nd _ _ _ _ _ _ _ _ _ lw)|eassumption|eassumption]). subst t'. eauto.
Qed.
(** Values for the target of a branch. *)
Lemma branch_start : forall k e S R b b' k' p mem', reach A own L k e S R -> f_file (m_f M) b = Some k -> In b' (f_succs (m_f M) b) -> f_first (m_f M) b' = Some k' ->
  tw p (TInt 64) -> (b' = exitb -> exists x w, m_pcx M b = Some x /\ vev e x = Ok w /\ tw w (TInt 64)) ->
  exists e' r, iseq e' p mem' (code_of M k') r /\ env_ok A e' /\ (forall a, owner own L a <> Some k' -> e' a = e a) /\
    (forall r inc, In (b', r, inc) (l_phis L) -> exists v, In (b, v) inc /\ vev e (v_e v) = Ok (e' (APhi b' r))) /\
    (b' = exitb -> exists x, m_pcx M b = Some x /\ vev e x = Ok (e' (AVar npc (TInt 64)))) /\
    lds_ok c L k' e' (end_slots L e S k).
Proof.
  intros k e S R b b' k' p mem' RE FB SU F1 PO PX.
  destruct (finish_finished A own is_undef (m_f M) ord fuel L US (lw_built _ _ _ _ _ _ _ _ _ lw) (lw_n _ _ _ _ _ _ _ _ _ lw) AB FIN) as (fu & m & FD).
  destruct (fin_hyps A own fu (m_f M) m L (lw_n _ _ _ _ _ _ _ _ _ lw) FD) as (H1 & H2 & H3 & H4 & H5 & H6 & H7). destruct shapes as (SF & SS & SP & SFI & SB).
  pose proof (fd_phok _ _ _ _ _ _ FD) as PHO. pose proof (fd_keys _ _ _ _ _ _ FD) as PK.
  assert (BE : env_ok A (next_env A L e (end_slots L e S k) k' (Some b)) /\
    (forall r inc, In (b', r, inc) (l_phis L) -> exists v, In (b, v) inc /\ vev e (v_e v) = Ok (next_env A L e (end_slots L e S k) k' (Some b) (APhi b' r))) /\
    slots_ok A (end_slots L e S k)).
  { eapply branch_env; try eassumption; [apply FD|rewrite SF; assumption|rewrite SS; assumption|rewrite SFI; assumption]. }
  destruct BE as (EO & PH & SO). set (e1 := next_env A L e (end_slots L e S k) k' (Some b)) in *.
  assert (OW1 : forall a, owner own L a <> Some k' -> e1 a = e a) by (intros a; apply (next_env_own A own)). destruct (st_first _ struct_M _ _ F1) as (K & _).
  assert (E2 : exists e2, env_ok A e2 /\ (forall a, owner own L a <> Some k' -> e2 a = e a) /\ (forall b r, e2 (APhi b r) = e1 (APhi b r)) /\
    (forall u r t, e2 (ASlot u r t) = e1 (ASlot u r t)) /\ (b' = exitb -> exists x, m_pcx M b = Some x /\ vev e x = Ok (e2 (AVar npc (TInt 64))))).
  { destruct (Nat.eq_dec b' exitb) as [Q|Q].
    - destruct (PX Q) as (x & w & MX & VX & TW). exists (fun a => match a with AVar n t => if Nat.eqb n npc && ty_eqb t (TInt 64) then w else e1 a | _ => e1 a end).
      split; [|split; [|split; [|split]]]; try reflexivity.
      + intros [n t|b0 r|u r t]; try apply EO. destruct (Nat.eqb n npc && ty_eqb t (TInt 64)) eqn:X; [|apply EO].
        apply andb_prop in X. destruct X as [_ X]. apply ty_eqb_eq in X. subst t. exact TW.
      + intros [n t|b0 r|u r t] O; try (apply OW1; exact O). destruct (Nat.eqb_spec n npc); [|apply OW1; exact O]. subst n.
        destruct O. cbn [owner]. rewrite <- ver_npc, <- F1, Q. reflexivity.
      + intros _. exists x. split; [exact MX|]. rewrite Nat.eqb_refl, ty_eqb_refl. exact VX.
    - exists e1. split; [exact EO|]. split; [exact OW1|]. split; [reflexivity|]. split; [reflexivity|]. intro X. destruct (Q X). }
  destruct E2 as (e2 & EO2 & OW2 & PH2 & SL2 & NP2).
  destruct (startup k' e2 p mem' (end_slots L e S k) K EO2 PO) as (e3 & r & IS & EO3 & OW3 & PH3 & EM3 & LO3).
  { intro r. rewrite SL2. apply next_slot. }
  exists e3, r. split; [exact IS|]. split; [exact EO3|]. split; [intros a O; rewrite OW3, OW2 by assumption; reflexivity|]. split; [|split; [|exact LO3]].
  - intros r0 inc I0. destruct (PH r0 inc I0) as (v & I1 & V1). exists v. rewrite PH3, PH2. auto.
  - intro Q. destruct (NP2 Q) as (x & MX & VX). exists x. split; [exact MX|]. rewrite EM3; [exact VX|].
    destruct (lw_exit _ _ _ _ _ _ _ _ _ lw) as (kx & XF & _ & XC & _). rewrite Q, XF in F1. injection F1 as <-. exact XC.
Qed.
Lemma entry_ready : exists k e S p mem, ready 0 k e S p mem.
Proof.
  destruct (lw_entry _ _ _ _ _ _ _ _ _ lw) as (ET & EC & EF & ES & EL). destruct (lw_a0 _ _ _ _ _ _ _ _ _ lw) as [RA IA]. destruct shapes as (SF & SS & SP & SFI & SB).
  set (ei := next_env A L (fun a => Poison (aty A a)) S0 0 None).
  assert (EO : env_ok A ei). { apply next_env_slot; try assumption; [intro a; split; [reflexivity|exact I]|]. intros b r. split; [reflexivity|exact I]. }
  assert (IR : irun 0 ei S0 p0 m0). { apply ir_entry; try assumption. split; [apply next_env_loads|]. intros r SY. rewrite <- (sys_nty _ _ SY). apply next_slot. }
  assert (EI : EINV c L S0 m0 0 ei S0 m0).
  { repeat (split; [reflexivity || assumption|]). apply re_entry; try assumption. apply next_env_loads. }
  destruct (target_first a0 1%nat s0 x0) as (k' & F1); [right; split; assumption|exact X0|].
  assert (RE : reach A own L 0 ei S0 (fun r => rbits (S0 r))) by apply EI.
  destruct (branch_start 0 ei S0 _ 0 1 k' p0 m0 RE EF) as (e' & r & IS & EO' & OW & PH & NP & LO); try assumption; [rewrite ES; left; reflexivity|discriminate|].
  assert (IE : iseq ei p0 m0 (code_of M 0) (Ok m0)) by (unfold code_of; rewrite EC; constructor).
  assert (BB : f_bb (l_fn L) 0 = 0%nat) by (rewrite SB; apply (st_file _ struct_M _ _ EF)).
  exists k', e', (end_slots L ei S0 0), p0, m0. split; [|split; [|split; [|split]]].
  - eapply (ir_branch c M npc L S0 p0 m0 0 ei S0 p0 m0 m0 (TBr 1) 0 1 k' e'); try eassumption; try reflexivity. rewrite SFI. exact F1.
  - eapply entry_next; try eassumption; try reflexivity. rewrite SFI. exact F1.
  - eauto.
  - exact PO0.
  - apply (st_first _ struct_M _ _ F1).
Qed.

Variable N : nat.
Variable sN : st.
Hypothesis END : steps N x0 = Ok (COut sN).
Lemma out_stays : forall n, (N <= n)%nat -> steps n x0 = Ok (COut sN).
Proof. intros n LE. induction LE as [|n LE IH]; [exact END|]. rewrite lsteps_snoc, IH. reflexivity. Qed.
Lemma run_before : forall n segs en s, steps n x0 = Ok (CRun segs en s) -> (n < N)%nat.
Proof. intros n segs en s E. destruct (Nat.lt_ge_cases n N) as [|LE]; [assumption|]. rewrite (out_stays n LE) in E. discriminate. Qed.
Lemma progress : forall lo k e S p mem, ready lo k e S p mem -> (exists S' p' mem', ireturn c M npc L S0 p0 m0 S' p' mem') \/
  (lo < N)%nat /\ exists lo' k' e' S' p' mem', ready lo' k' e' S' p' mem' /\ ((lo < lo')%nat \/ lo = lo' /\ (k < k')%nat).
Proof.
  destruct shapes as (SF & SS & SP & SFI & SB).
  intros lo k e S p mem (IR & PV & (r & IS) & PO & KN). pose proof PV as (EO & R & RE & [PI|(KX & _)]).
  2: { left. destruct (lw_exit _ _ _ _ _ _ _ _ _ lw) as (kx & XF & XT & XC & _). rewrite KX in XF. injection XF as <-.
       assert (Q : r = Ok mem) by (unfold code_of in IS; rewrite XC in IS; inversion IS; reflexivity). subst r.
       eexists. eexists. eexists. exists k, e, S, p, mem. eexists. split; [exact IR|]. split; [exact IS|]. split; [exact XT|]. split; [reflexivity|reflexivity]. }
  assert (LN : (lo < N)%nat).
  { destruct PI as (_ & _ & q & m & s & _ & [(segs & en & m4 & (n & PS & LN) & _)|(l & segs & en & m2 & x & m4 & (n & i & d & s1 & pre & PS & _ & LN) & _)]); apply run_before in PS; lia. }
  assert (FO : forall mem' x z, r = Ok mem' -> In (k, x, z) (m_fold M) -> vev e x = Ok (V (TInt 1) (b2z z))).
  { intros mem' x z -> I0. eapply FOLD; eassumption. }
  pose proof (piece_out c Ins ds a0 cfold gcache bs M npc L is_undef fuel ord LOW US AB FIN x0 HOK _ _ _ _ _ _ _ _ EO RE PI IS) as OU.
  destruct OU as [s mem1 pq f k1 b1 l segs en q' m' m2 y m4 EN TM' IP PS P' XK XV XPC SR LS CT EX' EX|s mem1 pq b1 EN TM' IP PS|s mem1 pq b1 en t1 EN TM' FB MX PS D SU].
  - right. split; [exact LN|]. destruct EN as [ER EM EG ERN' ESY EP (w & w' & PW & VW & RL & TY)]. subst r.
    set (u := c_ext c f (cpu_of (end_slots L e S k) w' mem1)). assert (CU : cpu_rng u).
    { apply ERN. intros rg z _ U. cbn [cpu_of u_reg] in U. destruct (out_slots _ _ _ _ RE rg) as [T W].
      destruct (end_slots L e S k rg) as [t0 z0|t0]; [|discriminate]. injection U as <-. cbn [ty_of wf_rv] in T, W. subst t0. rewrite nty_size in W. exact W. }
    destruct (slots_of_ok u CU) as [SO RU].
    destruct (ls_term _ _ _ ls _ _ TM') as (_ & _ & _ & TC & _). destruct (TC _ _ _ eq_refl) as ((KL & KL2) & _).
    destruct (startup k1 (next_env A L e (slots_of u) k1 None) (pc_rv (u_pc u)) (u_mem u) (slots_of u) KL2) as (e3 & r & IS3 & EO3 & OW3 & PH3 & EM3 & LO3).
    { apply next_env_slot; try assumption. intros b r. apply (EO (APhi b r)). }
    { apply pc_rv_tw. }
    { intro r. apply next_slot. }
    assert (OW : forall a, owner own L a <> Some k1 -> e3 a = e a) by (intros a O; rewrite OW3 by assumption; apply (next_env_own A own); exact O).
    exists lo, k1, e3, (slots_of u), (pc_rv (u_pc u)), (u_mem u). split; [|right; split; [reflexivity|exact KL]].
    split; [|split; [|split; [|split]]].
    + eapply (ir_call c M npc L S0 p0 m0 k e S p mem mem1 f (pc_exp c pq 0) w' k1 e3 (slots_of u)); eassumption.
    + eapply (call_next c Ins ds a0 cfold gcache bs M npc L is_undef fuel ord LOW US AB FIN EXT x0 HOK lo k e S p mem mem1 f _ w' k1); eassumption.
    + eauto.
    + apply pc_rv_tw.
    + exact KL2.
  - left. destruct EN as [ER EM EG ERN' ESY EP (w & w' & PW & VW & RL & TY)]. subst r.
    eexists. eexists. eexists. exists k, e, S, p, mem. eexists. split; [exact IR|]. split; [exact IS|]. split; [exact TM'|]. split; [exact VW|reflexivity].
  - right. split; [exact LN|]. pose proof (ed_r _ _ _ _ _ _ _ _ _ _ _ EN) as ER. subst r.
    destruct (end_step c Ins ds bs M x0 HOK _ _ _ _ _ _ _ _ _ _ _ _ EN PS D (fun x z => FO _ x z eq_refl)) as (b' & NB & GO).
    destruct EN as [_ EM EG ERN' ESY EP (w & w' & PW & VW & RL & TY)].
    assert (F1 : exists k', f_first (m_f M) b' = Some k').
    { destruct GO as [[-> _]|(n & a & y & GO & GT & _)]; [exists (own npc); exact ver_npc|eapply target_first; eassumption]. }
    destruct F1 as (k' & F1).
    assert (BB : f_bb (m_f M) k = b1) by (apply (st_file _ struct_M _ _ FB)).
    assert (SUC : In b' (f_succs (m_f M) b1)).
    { apply SU. destruct t1 as [b2|x t' o|f x k2|x]; cbn [next_blk] in NB; try discriminate.
      - injection NB as <-. right. reflexivity.
      - left. exists x, t', o. split; [reflexivity|]. unfold pick in NB. destruct (vev e x) as [[[w0| | | |] z|[w0| | | |]]| |]; cbn [bind] in NB; try discriminate.
        all: destruct w0 as [|[w0|w0|]|w0]; try discriminate. injection NB as <-. destruct (z =? 0); auto. }
    destruct (branch_start k e S R b1 b' k' p mem1 RE FB SUC F1 PO) as (e' & r & IS' & EO' & OW & PH & NP & LO).
    { intros _. exists (pc_exp c pq 0), w'. split; [exact MX|]. split; [exact VW|]. destruct (ls_pcx _ _ _ ls _ _ MX) as (_ & k2 & _ & _ & TX). eapply sty_ok; [exact EO|exact TX|exact VW]. }
    exists (Datatypes.S lo), k', e', (end_slots L e S k), p, mem1. split; [|left; constructor].
    split; [|split; [|split; [|split]]].
    + eapply (ir_branch c M npc L S0 p0 m0 k e S p mem mem1 t1 b1 b' k' e'); try eassumption; [rewrite SB; exact BB|rewrite SFI; exact F1].
    + eapply (branch_next c Ins ds a0 cfold gcache bs M npc L is_undef fuel ord LOW US AB FIN x0 HOK lo k e S p mem mem1 t1 b1 b' k' e'); try eassumption; [intros; eapply FO; [reflexivity|eassumption]|rewrite SB; exact BB|rewrite SFI; exact F1].
    + eauto.
    + exact PO.
    + apply (st_first _ struct_M _ _ F1).
Qed.
(** If the builder semantics ends, the emitted function can be executed up to a return. *)
Theorem lowered_returns : exists S p mem, ireturn c M npc L S0 p0 m0 S p mem.
Proof.
  assert (X : forall d lo k e S p mem, ((N - lo) * Datatypes.S (f_n (m_f M)) + (f_n (m_f M) - k) < d)%nat -> ready lo k e S p mem -> exists S' p' mem', ireturn c M npc L S0 p0 m0 S' p' mem').
  { induction d as [|d IH]; intros lo k e S p mem LT RD; [destruct (Nat.nlt_0_r _ LT)|]. destruct (progress _ _ _ _ _ _ RD) as [RT|(LN & lo' & k' & e' & S' & p' & mem' & RD' & DE)]; [exact RT|].
    eapply (IH lo' k'); [|exact RD']. destruct RD as (_ & _ & _ & _ & KN). destruct RD' as (_ & _ & _ & _ & KN').
    pose proof (measure_lt _ _ _ _ _ _ LN KN KN' DE) as Q. eapply Nat.lt_le_trans; [exact Q|]. apply Nat.lt_succ_r. exact LT. }
  destruct entry_ready as (k & e & S & p & mem & RD). eapply X; [|exact RD]. apply Nat.lt_succ_diag_r.
Qed.
End Ex.
