(** C68: the emitted function is in SSA form.

    llvm::verifyFunction (function.cc:237) is called only if verify_ir is set; the
    statements here are what it would check: every value is defined once, every use is
    dominated by the definition, the operands have the types their instructions need.

    The control flow graph of the emitted function has the pieces of code (the code
    that belongs to one register file: a basic block, or the part of it between two
    calls) as its nodes. *)

From Coq Require Import ZArith Lia ZifyBool List Bool Arith Cantor.
From Verif Require Import CfgFinish Prop_Cfg Bits IR IrMono IrWf Facet Dsl RegFile RegFileOk RegScript Layout Cfg CfgHeap CfgLog CfgBuild CfgSem Decode LiftFn Lower LowerOk LowerSem SsaHeap Ssa SsaFin SsaPc LowerEx Rv64 DecodeRv LiftRv Rv64Ex Prop_Lift Prop_Ir.
Import ListNotations.
Open Scope Z_scope.

Section Spec.
Variable M : em.
(** From one piece of code to the next: a call, or a branch to a block. *)
Inductive edge : nat -> nat -> Prop :=
| ed_call : forall k g x k', m_term M k = Some (TCall g x k') -> edge k k'
| ed_br : forall k t b k', m_term M k = Some t -> In b (tgts t) -> f_first (m_f M) b = Some k' -> edge k k'.
(** Paths from the entry, and what lies on them. *)
Inductive path : nat -> list nat -> Prop :=
| pa_entry : path 0 [0%nat]
| pa_step : forall k k' l, path k l -> edge k k' -> path k' (k' :: l).
Definition dominates (d k : nat) : Prop := forall l, path k l -> In d l.
(** Instruction number [i] of piece [k] defines value [n] of type [t]. *)
Definition def_at (n : nat) (t : ty) (k i : nat) : Prop := exists x, nth_error (code_of M k) i = Some x /\ In (n, t) (tdefs x).
(** What may be used before instruction [i] of piece [k]: values defined earlier in
    the piece, or in a piece that dominates it, with the type they have; PHI nodes of
    blocks that dominate it; values loaded from the CPU struct at the beginning of
    pieces that dominate it. *)
Definition avail (k i : nat) (a : atom) : Prop :=
  match a with
  | AVar n t => exists k' j, def_at n t k' j /\ (k' = k /\ (j < i)%nat \/ k' <> k /\ dominates k' k)
  | APhi b _ => exists j, f_first (m_f M) b = Some j /\ dominates j k
  | ASlot u _ _ => dominates u k
  end.
Definition at_end (k : nat) : atom -> Prop := avail k (length (code_of M k)).
End Spec.

Section Ssa.
Context `{FpuOps}.
Variable c : cenv.
Notation A := (c_arch c).
Variable Ins : Type.
Variable ds : dst Ins.
Variable a0 : Z.
Variable cfold : nat -> exp atom -> option bool.
Variable gcache : nat -> bool.
Variable bs : list (lblock (LA := plain_lang) Ins).
Variable M : em.
Variable npc : nat.
Hypothesis LOW : lower c Ins ds a0 cfold gcache bs = Some (M, npc).
Notation ls := (lower_si c Ins ds a0 cfold gcache bs M npc LOW).
Notation lw := (lower_inv c Ins ds a0 cfold gcache bs M npc LOW).

Lemma bt : built A own (m_f M).
Proof. apply (lw_built _ _ _ _ _ _ _ _ _ lw). Qed.
Lemma bsM : BS (m_f M).
Proof. exact (proj2 (built_BI _ _ _ bt)). Qed.
(** The only way to a piece that continues with another one's values. *)
Lemma parent_edge : forall k k0 p, ini M k = InitParent p -> edge M k0 k -> k0 = p.
Proof.
  intros k k0 p I0 ED. inversion ED as [k1 g x k2 T|k1 t b k2 T TG F]; subst.
  - destruct (ls_term _ _ _ ls _ _ T) as (_ & _ & _ & TC & _). destruct (TC _ _ _ eq_refl) as (_ & N & _). congruence.
  - destruct (ls_term _ _ _ ls _ _ T) as (_ & _ & _ & _ & TB). destruct (TB _ TG) as (b0 & F0 & S0).
    destruct (st_first _ bsM _ _ F) as (_ & BB & _). destruct (st_par _ bsM _ _ I0) as (q & PR & FQ & _). rewrite BB in PR.
    apply (st_edge _ bsM) in S0. rewrite PR in S0. destruct S0 as [<-|[]]. congruence.
Qed.
Lemma anc_dominates : forall k d, anc (ini M) k d -> dominates M d k.
Proof.
  induction 1 as [k|k p d E _ IH]; intros l PA.
  - inversion PA; left; reflexivity.
  - inversion PA as [|k0 k1 l0 PA0 ED]; subst.
    + destruct (st_0 _ bsM (lw_n _ _ _ _ _ _ _ _ _ lw)) as [_ N]. unfold ini in E. congruence.
    + right. apply IH. rewrite <- (parent_edge _ _ _ E ED). exact PA0.
Qed.
Lemma in_def_at : forall n t k, In (n, t) (flat_map tdefs (m_code M k)) -> exists j, def_at M n t k j.
Proof.
  intros n t k I0. apply in_flat_map in I0. destruct I0 as (x & I0 & I1). apply in_rev in I0. apply In_nth_error in I0. destruct I0 as (j & N). exists j, x. split; assumption.
Qed.
Lemma split_at : forall k i x, nth_error (code_of M k) i = Some x -> exists l1 l2, m_code M k = rev l2 ++ x :: rev l1 /\ code_of M k = l1 ++ x :: l2 /\ length l1 = i.
Proof.
  intros k i x N. apply nth_error_split in N. destruct N as (l1 & l2 & E & LE). exists l1, l2. split; [|auto].
  unfold code_of in E. apply (f_equal (@rev _)) in E. rewrite rev_involutive, rev_app_distr in E. cbn [rev] in E. rewrite E, <- app_assoc. reflexivity.
Qed.
Lemma us_avail : forall k l1 l2 a, code_of M k = l1 ++ l2 -> Us M k (rev l1) a -> avail M k (length l1) a.
Proof.
  intros k l1 l2 a E U. destruct a as [n t|b r|u r t]; cbn [Us usable avail] in *.
  - destruct U as [[O I0]|(NE & AN & I0)].
    + apply in_flat_map in I0. destruct I0 as (x & I0 & I1). apply in_rev in I0. apply In_nth_error in I0. destruct I0 as (j & N).
      assert (LT : (j < length l1)%nat) by (apply nth_error_Some; congruence). exists k, j. split; [|left; auto]. exists x. split; [|exact I1]. rewrite E, nth_error_app1 by exact LT. exact N.
    + destruct (in_def_at _ _ _ I0) as (j & D). exists (own n), j. split; [exact D|]. right. split; [exact NE|]. apply anc_dominates. exact AN.
  - destruct U as (j & F & _ & AN). exists j. split; [exact F|]. apply anc_dominates. exact AN.
  - apply anc_dominates. exact U.
Qed.
Lemma pu_end : forall k a, Pu M k a -> at_end M k a.
Proof.
  intros k a U. apply (us_avail k (code_of M k) []); [rewrite app_nil_r; reflexivity|]. unfold code_of. rewrite rev_involutive. exact U.
Qed.
Lemma def_own : forall n t k i, def_at M n t k i -> own n = k.
Proof.
  intros n t k i (x & N & I0). apply (ucode_nx c M k (m_code M k) n (ls_code _ _ _ ls k)). unfold dnums. apply in_map_iff. exists (n, t). split; [reflexivity|].
  apply in_flat_map. exists x. split; [|exact I0]. apply in_rev. apply nth_error_In in N. exact N.
Qed.
Lemma def_lt : forall n t t' k i i', def_at M n t k i -> def_at M n t' k i' -> ~ (i < i')%nat.
Proof.
  intros n t t' k i i' (x & N & I0) (x' & N' & I0') LT. destruct (split_at _ _ _ N') as (l1 & l2 & E & E2 & LE).
  pose proof (ls_code _ _ _ ls k) as U. rewrite E in U. apply ucode_suf in U. cbn [ucode] in U. destruct U as (_ & _ & _ & U4 & _).
  destruct (U4 n) as (_ & _ & X); [apply in_map_iff; exists (n, t'); auto|]. apply X. unfold dnums. apply in_map_iff. exists (n, t). split; [reflexivity|].
  apply in_flat_map. exists x. split; [|exact I0]. apply -> in_rev. rewrite E2, nth_error_app1 in N by lia. apply nth_error_In in N. exact N.
Qed.
Lemma nodup_fst : forall (l : list (nat * ty)) n t t', NoDup (map fst l) -> In (n, t) l -> In (n, t') l -> t = t'.
Proof.
  induction l as [|[m u] l IH]; intros n t t' ND I0 I1; [destruct I0|]. cbn [map fst] in ND. inversion ND as [|? ? NI ND']; subst.
  assert (NN : forall v, In (n, v) l -> m <> n) by (intros v IV ->; apply NI; apply in_map_iff; exists (n, v); auto).
  destruct I0 as [I0|I0], I1 as [I1|I1]; [congruence| | |eauto].
  - injection I0 as -> ->. destruct (NN _ I1 eq_refl).
  - injection I1 as -> ->. destruct (NN _ I0 eq_refl).
Qed.

(** Every value has one definition, and one type. *)
Theorem values_defined_once : forall n t t' k i k' i', def_at M n t k i -> def_at M n t' k' i' -> k = k' /\ i = i' /\ t = t'.
Proof.
  intros n t t' k i k' i' D D'. assert (EK : k = k') by (rewrite <- (def_own _ _ _ _ D); apply (def_own _ _ _ _ D')). subst k'. split; [reflexivity|].
  pose proof (def_lt _ _ _ _ _ _ D D'). pose proof (def_lt _ _ _ _ _ _ D' D). assert (EI : i = i') by lia. subst i'. split; [reflexivity|].
  destruct D as (x & N & I0). destruct D' as (x' & N' & I0'). assert (x' = x) by congruence. subst x'.
  destruct (split_at _ _ _ N) as (l1 & l2 & E & _). pose proof (ls_code _ _ _ ls k) as U. rewrite E in U. apply ucode_suf in U. cbn [ucode] in U. destruct U as (_ & _ & ND & _).
  eapply nodup_fst; eassumption.
Qed.
(** Operands of instructions. *)
Theorem operands_dominated : forall k i x o, nth_error (code_of M k) i = Some x -> In o (iops x) -> ain (avail M k i) o.
Proof.
  intros k i x o N I0. destruct (split_at _ _ _ N) as (l1 & l2 & E & E2 & LE). pose proof (ls_code _ _ _ ls k) as U. rewrite E in U. apply ucode_suf in U. cbn [ucode] in U.
  destruct U as (U1 & _). eapply ain_mono; [|exact (U1 o I0)]. intros a UA. rewrite <- LE. eapply us_avail; [exact E2|exact UA].
Qed.
Theorem operands_typed : forall k i x, nth_error (code_of M k) i = Some x -> styped c x.
Proof.
  intros k i x N. destruct (split_at _ _ _ N) as (l1 & l2 & E & _). pose proof (ls_code _ _ _ ls k) as U. rewrite E in U. apply ucode_suf in U. cbn [ucode] in U. apply U.
Qed.
(** Operands of branches, calls and returns. The return in the exit block uses the PHI
    node of that block for the PC, which no instruction defines. *)
Theorem terminators_dominated : forall k t, m_term M k = Some t -> ttyped c t /\
  ((forall o, In o (tops t) -> ain (at_end M k) o) \/ f_first (m_f M) exitb = Some k /\ t = TRet (ELeaf (AVar npc (TInt 64)))).
Proof.
  intros k t T. destruct (ls_term _ _ _ ls _ _ T) as (_ & TY & OP & _). split; [exact TY|]. destruct OP as [OP|[-> ->]].
  - left. intros o I0. eapply ain_mono; [|exact (OP o I0)]. intro a. apply pu_end.
  - right. split; [|reflexivity]. apply (ls_npc _ _ _ ls).
Qed.
Theorem exit_pc_once : forall t k i, ~ def_at M npc t k i.
Proof.
  intros t k i D. pose proof (def_own _ _ _ _ D) as O. destruct D as (x & N & _). destruct (ls_npc _ _ _ ls) as [_ E]. unfold code_of in N. rewrite <- O, E in N. destruct i; discriminate N.
Qed.
(** The incoming values of that PHI node. *)
Theorem exit_pc_dominated : forall b x, m_pcx M b = Some x -> exists k, f_file (m_f M) b = Some k /\ ain (at_end M k) x /\ sty c x (TInt 64).
Proof.
  intros b x E. destruct (ls_pcx _ _ _ ls _ _ E) as (_ & k & F & U & T). exists k. split; [exact F|]. split; [|exact T]. eapply ain_mono; [|exact U]. intro a. apply pu_end.
Qed.

(** ... of which there is one for every branch to the exit block. *)
Theorem exit_pc_complete : forall k t, m_term M k = Some t -> In exitb (tgts t) -> exists b x, f_file (m_f M) b = Some k /\ m_pcx M b = Some x.
Proof.
  intros k t T I0. destruct (ls_term _ _ _ ls _ _ T) as (_ & _ & _ & _ & TB). destruct (TB _ I0) as (b & F & S0).
  pose proof (lower_pcs c Ins ds a0 cfold gcache bs M npc LOW b S0) as N. destruct (m_pcx M b) as [x|] eqn:E; [|contradiction]. exists b, x. auto.
Qed.

(** The stores into the CPU struct and the PHI nodes of the finished function. *)
Variable L : lifted.
Variable is_undef : value -> bool.
Variable fuel : nat.
Variable ord : list nat.
Hypothesis FIN : Cfg.finish A is_undef fuel (m_f M) ord = Some L.
Theorem stores_dominated : forall k r v, In (k, r, v) (l_stores L) -> ain (at_end M k) (v_e v).
Proof.
  intros k r v I0.
  destruct (finish_in A is_undef (ini M) (Pu M) (Pu_par c cfold gcache M bt) (Pu_phi c M bt) (Pu_load M) fuel (m_f M) ord L (ls_h _ _ _ ls) FIN) as (_ & SI & _).
  eapply ain_mono; [|exact (SI _ _ _ I0)]. intro a. apply pu_end.
Qed.
Theorem phis_dominated : forall b r inc p v, In (b, r, inc) (l_phis L) -> In (p, v) inc -> exists k, f_file (m_f M) p = Some k /\ ain (at_end M k) (v_e v).
Proof.
  intros b r inc p v I0 I1.
  destruct (finish_in A is_undef (ini M) (Pu M) (Pu_par c cfold gcache M bt) (Pu_phi c M bt) (Pu_load M) fuel (m_f M) ord L (ls_h _ _ _ ls) FIN) as (_ & _ & PI).
  destruct (PI _ _ _ I0 _ _ I1) as (k & F & VI). exists k. split; [exact F|]. eapply ain_mono; [|exact VI]. intro a. apply pu_end.
Qed.
End Ssa.
Print Assumptions values_defined_once.
Print Assumptions operands_dominated.
Print Assumptions operands_typed.
Print Assumptions terminators_dominated.
Print Assumptions exit_pc_once.
Print Assumptions exit_pc_dominated.
Print Assumptions exit_pc_complete.
Print Assumptions stores_dominated.
Print Assumptions phis_dominated.

(** ** Non-vacuity *)
(** In the loop of Prop_Ir.v, the value the loop returns to is computed, in the last
    block, from x1 as it was loaded after the call in another block. There is a path
    from one to the other, and there is none around it. *)
Example ex_path : path em_loop 4 [4; 3; 2; 1; 3; 2; 1; 0]%nat.
Proof.
  assert (E01 : edge em_loop 0 1) by (eapply ed_br; [vm_compute; reflexivity|left; reflexivity|vm_compute; reflexivity]).
  assert (E12 : edge em_loop 1 2) by (eapply ed_call; vm_compute; reflexivity).
  assert (E23 : edge em_loop 2 3) by (eapply ed_br; [vm_compute; reflexivity|left; reflexivity|vm_compute; reflexivity]).
  assert (E31 : edge em_loop 3 1) by (eapply ed_br; [vm_compute; reflexivity|left; reflexivity|vm_compute; reflexivity]).
  assert (E34 : edge em_loop 3 4) by (eapply ed_br; [vm_compute; reflexivity|right; left; reflexivity|vm_compute; reflexivity]).
  apply pa_step with 3%nat; [|exact E34]. apply pa_step with 2%nat; [|exact E23]. apply pa_step with 1%nat; [|exact E12]. apply pa_step with 3%nat; [|exact E31].
  apply pa_step with 2%nat; [|exact E23]. apply pa_step with 1%nat; [|exact E12]. apply pa_step with 0%nat; [|exact E01]. apply pa_entry.
Qed.
Example ex_cross_use : exists x, nth_error (code_of em_loop 4) 1 = Some x /\
  iops x = [E2 (OBin Add) (ELeaf (ASlot 2 (GP 1) (TInt 64))) (EConst (TInt 64) 0)].
Proof. eexists. split; [vm_compute; reflexivity|vm_compute; reflexivity]. Qed.
Example ex_dominates : dominates em_loop 2 4.
Proof.
  destruct ex_cross_use as (x & N & O).
  assert (I0 : In (E2 (OBin Add) (ELeaf (ASlot 2 (GP 1) (TInt 64))) (EConst (TInt 64) 0)) (iops x)) by (rewrite O; left; reflexivity).
  pose proof (@operands_dominated fpu0 c_ret rvinst ds_loop 0x1000 (fun _ _ => None) (fun _ => true) bs_loop em_loop npc_loop low_loop_eq 4 1 x _ N I0) as X.
  cbn [ain avail] in X. apply X.
Qed.
(** The end of the loop does not dominate its header, which is entered from outside. *)
Example ex_not_dominates : ~ dominates em_loop 3 1.
Proof.
  intro D. assert (P : path em_loop 1 [1; 0]%nat).
  { eapply pa_step; [apply pa_entry|]. eapply ed_br; [vm_compute; reflexivity|left; reflexivity|vm_compute; reflexivity]. }
  destruct (D _ P) as [X|[X|[]]]; discriminate X.
Qed.
(** The PHI node of the loop counter takes the value loaded after the call, from the
    block the loop ends with. *)
Example ex_phi_in : In (1%nat, GP 5, [(0%nat, Val (TInt 64) (ELeaf (ASlot 0 (GP 5) (TInt 64)))); (3%nat, Val (TInt 64) (ELeaf (ASlot 2 (GP 5) (TInt 64))))]) (l_phis L_loop).
Proof. vm_compute. left. reflexivity. Qed.
Example ex_phi_dom : exists k, f_file (m_f em_loop) 3 = Some k /\ dominates em_loop 2 k.
Proof.
  destruct (@phis_dominated fpu0 c_ret rvinst ds_loop 0x1000 (fun _ _ => None) (fun _ => true) bs_loop em_loop npc_loop low_loop_eq L_loop (fun _ => false) 40 ord_loop fin_loop_eq
    _ _ _ 3%nat _ ex_phi_in (or_intror (or_introl eq_refl))) as (k & F & X).
  exists k. split; [exact F|]. exact X.
Qed.
Example ex_def_at : def_at em_loop 73 (TInt 64) 4 1.
Proof. eexists. split; [vm_compute; reflexivity|left; reflexivity]. Qed.
(** The exit block is reached from the block after the call, which gives the PC it came
    back with. *)
Example ex_exit_pc : exists b x, f_file (m_f em_loop) b = Some 2%nat /\ m_pcx em_loop b = Some x.
Proof.
  eapply (@exit_pc_complete fpu0 c_ret rvinst ds_loop 0x1000 (fun _ _ => None) (fun _ => true) bs_loop em_loop npc_loop low_loop_eq 2%nat); [vm_compute; reflexivity|right; left; reflexivity].
Qed.
