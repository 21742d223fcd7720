(** Properties C18 to C22: PHI nodes, values across blocks, the CPU struct at calls
    and returns, the data flow analysis, and which registers are stored; for all
    functions that can be built, of any size and shape, and all paths. *)

From Coq Require Import ZArith Lia ZifyBool List Bool.
From Verif Require Import Bits IR Facet Dsl RegFile RegFileOk RegScript Layout Cfg CfgHeap CfgLog CfgBuild FlowOk CfgFinish CfgSem CfgSemOk Rv64Ex.
Import ListNotations.
Open Scope Z_scope.

(** ** Specification *)
(** Register [r] may have been modified on a path to the end of the code of register
    file [k] since it was last loaded from the CPU struct. *)
Inductive modified (f : fn) (r : areg) : nat -> Prop :=
| md_here : forall k ox, freach f (f_bb f k) -> In ox (f_log f) -> writes k r (fst ox) -> modified f r k
| md_branch : forall k b b' k', modified f r k -> f_file f b = Some k -> In b' (f_succs f b) -> f_first f b' = Some k' -> modified f r k'.
(** A value is a poison value. *)
Definition undef_sound `{FpuOps} (A : arch) (is_undef : value -> bool) : Prop :=
  forall v, is_undef v = true -> forall e, env_ok A e -> pv e v = None.
(** All blocks but the entry block are visited. *)
Definition all_blocks (f : fn) (ord : list nat) : Prop := forall b, (0 < b < f_nb f)%nat -> In b ord.
(** PHI nodes occurring in a value are nodes of the function. *)
Definition phis_in (L : lifted) (v : value) : Prop := vin (fun a => match a with APhi b r => In (b, r) (map fst (l_phis L)) | _ => True end) v.

(** ** More fuel does not change results *)
Lemma flow_fuel : forall n f cur new m m', flow n f cur new m = Some m' -> flow (S n) f cur new m = Some m'.
Proof.
  induction n as [|n IH]; intros f cur new m m' E; [discriminate|]. cbn [flow] in E. destruct cur as [|b q].
  - destruct new as [|x l]; [exact E|]. apply IH in E. exact E.
  - apply IH in E. exact E.
Qed.
Lemma hoist_fuel : forall n f m b k r x, hoist n f m b k r = Some x -> hoist (S n) f m b k r = Some x.
Proof.
  induction n as [|n IH]; intros f m b k r x E; [discriminate|]. cbn [hoist] in E. remember (S n) as n1. cbn [hoist]. subst n1.
  destruct (starts_clean (f_h f) k || Z.testbit (dirty_mask (f_h f) k) (bit_idx r)); [exact E|].
  destruct (filter _ _) as [|p [|q l]]; try exact E. destruct (f_succs f p) as [|y [|z l]]; try exact E. destruct (f_file f p); [|discriminate]. apply IH. exact E.
Qed.
Section Fuel.
Context `{FpuOps}.
Variable A : arch.
Variable is_undef : value -> bool.
Lemma pack_reg_fuel : forall n m p f rf x, pack_reg A is_undef n m p f rf = Some x -> pack_reg A is_undef (S n) m p f rf = Some x.
Proof.
  intros n m p f [r fc] x E. unfold pack_reg in *. destruct (Z.testbit _ (bit_idx r)); [|exact E].
  destruct (hoist n f m (pk_bb p) (pk_file p) r) as [[b k]|] eqn:HO; [|discriminate]. rewrite (hoist_fuel _ _ _ _ _ _ _ HO). exact E.
Qed.
Lemma pack_regs_fuel : forall n m p l f x, pack_regs A is_undef n m p f l = Some x -> pack_regs A is_undef (S n) m p f l = Some x.
Proof.
  intros n m p. induction l as [|rf l IH]; intros f x E; [exact E|]. cbn [pack_regs] in *. destruct (pack_reg A is_undef n m p f rf) as [[f1 s1]|] eqn:E1; [|discriminate].
  rewrite (pack_reg_fuel _ _ _ _ _ _ E1). destruct (pack_regs A is_undef n m p f1 l) as [[f2 s2]|] eqn:E2; [|discriminate]. rewrite (IH _ _ E2). exact E.
Qed.
Lemma pack_all_fuel : forall n m l f x, pack_all A is_undef n m f l = Some x -> pack_all A is_undef (S n) m f l = Some x.
Proof.
  intros n m. induction l as [|p l IH]; intros f x E; [exact E|]. cbn [pack_all] in *. destruct (pack_regs A is_undef n m p f (reg_slots A)) as [[f1 s1]|] eqn:E1; [|discriminate].
  rewrite (pack_regs_fuel _ _ _ _ _ _ E1). destruct (pack_all A is_undef n m f1 l) as [[f2 s2]|] eqn:E2; [|discriminate]. rewrite (IH _ _ E2). exact E.
Qed.
Lemma fill_loop_fuel : forall n f fl ord x, fill_loop A n f fl ord = Some x -> fill_loop A (S n) f fl ord = Some x.
Proof.
  induction n as [|n IH]; intros f fl ord x E; [discriminate|]. cbn [fill_loop] in E. remember (S n) as n1. cbn [fill_loop]. subst n1.
  destruct (fill_round A f fl ord) as [[[[f1 fl1] ps] c]|]; [|discriminate]. destruct c; [|exact E].
  destruct (fill_loop A n f1 fl1 ord) as [[f2 qs]|] eqn:E2; [|discriminate]. rewrite (IH _ _ _ _ E2). exact E.
Qed.
Lemma finish_fuel : forall n f ord x, finish A is_undef n f ord = Some x -> finish A is_undef (S n) f ord = Some x.
Proof.
  intros n f ord x E. unfold finish, optimize_packs in *. destruct (flow n f [0%nat] [] (fun _ => None)) as [m|] eqn:FL; [|discriminate]. rewrite (flow_fuel _ _ _ _ _ _ FL).
  destruct (pack_all A is_undef n m f (f_packs f)) as [[f1 ss]|] eqn:E1; [|discriminate]. rewrite (pack_all_fuel _ _ _ _ _ E1).
  destruct (fill_loop A n f1 (fun _ => O) ord) as [[f2 ps]|] eqn:E2; [|discriminate]. rewrite (fill_loop_fuel _ _ _ _ _ E2). exact E.
Qed.
Lemma finish_le : forall n n' f ord x, (n <= n')%nat -> finish A is_undef n f ord = Some x -> finish A is_undef n' f ord = Some x.
Proof. intros n n' f ord x LE E. induction LE as [|n' LE IH]; [assumption|]. apply finish_fuel. assumption. Qed.
End Fuel.

Section Props.
Context `{FpuOps}.
Variable A : arch.
Variable own : nat -> nat.

Lemma nb_pos : forall f, BI A own f -> (0 < f_n f)%nat -> (0 < f_nb f)%nat.
Proof. intros f [_ B] N. destruct (st_0 _ B N) as [F0 _]. apply (st_first _ B _ _ F0). Qed.
Lemma finish_finished : forall is_undef f ord fuel L, undef_sound A is_undef -> built A own f -> (0 < f_n f)%nat -> all_blocks f ord ->
  finish A is_undef fuel f ord = Some L -> exists fuel m, finished A own fuel f m L.
Proof.
  intros is_undef f ord fuel L U BF N AB E. pose proof (built_BI A own f BF) as BB.
  destruct (finish_ok A own is_undef U f ord BB (nb_pos f BB N) AB) as (F & HF). destruct (HF (max F fuel) ltac:(lia)) as (m & L' & _ & E' & FD).
  rewrite (finish_le A is_undef fuel (max F fuel) f ord L ltac:(lia) E) in E'. injection E' as ->. exists (max F fuel), m. assumption.
Qed.

(** The hypotheses of CfgSemOk. *)
Lemma fin_hyps : forall fuel f m L, (0 < f_n f)%nat -> finished A own fuel f m L ->
  BI A own (l_fn L) /\ qinv (l_fn L) [] [] m /\ (0 < f_n (l_fn L))%nat /\
  (forall k r v, In (k, r, v) (l_stores L) -> mapped A r /\ rdok A own (l_fn L) k r v) /\
  (forall k r v, In (k, r, v) (l_stores L) -> exists p b, In p (f_packs (l_fn L)) /\ Z.testbit (regset (l_fn L) m p) (bit_idx r) = true /\
                hoist fuel (l_fn L) m (pk_bb p) (pk_file p) r = Some (b, k)) /\
  (forall p r, In p (f_packs (l_fn L)) -> mapped A r -> Z.testbit (regset (l_fn L) m p) (bit_idx r) = true ->
                exists b k, hoist fuel (l_fn L) m (pk_bb p) (pk_file p) r = Some (b, k) /\
                ((exists v, In (k, r, v) (l_stores L)) \/ forall e, env_ok A e -> mlog A e (f_log (l_fn L)) k r = None)) /\
  (forall k r, In (k, r) (h_loads (f_h (l_fn L))) -> In (k, r) (l_early L) \/ h_dirty (f_h (l_fn L)) k r = false /\ h_init (f_h (l_fn L)) k = InitNone).
Proof.
  intros fuel f m L N FD. pose proof (fd_ext _ _ _ _ _ _ FD) as X. pose proof (fd_st _ _ _ _ _ _ FD) as ST.
  destruct (rx_shape _ _ _ X) as (E1 & E2 & E3 & E4 & E5 & E6 & E7 & E8 & E9 & E10).
  split; [apply FD|]. split; [eapply qinv_ext; [exact X|apply FD]|]. split; [rewrite E1; assumption|].
  split; [intros k r v I; destruct (sk_val _ _ _ _ _ _ _ _ _ ST k r v I) as (Y1 & _ & Y2); auto|].
  split; [|split].
  - intros k r v I. destruct (sk_from _ _ _ _ _ _ _ _ _ ST k r v I) as (p & b & Y1 & Y2 & Y3). exists p, b. rewrite E7, (regset_ext _ _ _ _ _ X), (hoist_ext _ _ _ _ X). auto.
  - intros p r IP MR T. rewrite E7 in IP. rewrite (regset_ext _ _ _ _ _ X) in T. destruct (sk_all _ _ _ _ _ _ _ _ _ ST p r IP MR T) as (b & k & Y1 & Y2). exists b, k.
    rewrite (hoist_ext _ _ _ _ X), (rx_log _ _ _ X). auto.
  - intros k r I. rewrite (fd_early _ _ _ _ _ _ FD). destruct (rx_new _ _ _ X k r I) as [Y|[Y1 Y2]]; [left; assumption|right]. rewrite (rx_dirty _ _ _ X), E10. auto.
Qed.

(** ** [modified] and the data flow analysis *)
Lemma mdo_modified : forall f r, BI A own f -> mapped A r -> forall b, mdo f (bit_idx r) b <-> exists k, f_file f b = Some k /\ modified f r k.
Proof.
  intros f r [CO B] MR b. assert (AR : In r all_regs) by (eapply mapped_all; eassumption). split.
  - intros M. induction M as [b k FR K T|b k p FR K SC IP M IH]; exists k; (split; [assumption|]); destruct (st_file _ B b k K) as (LK & BK & _).
    + rewrite dirty_bit in T by assumption. destruct (co_wr _ _ _ _ _ _ _ _ CO _ _ T) as (ox & X1 & X2). eapply md_here; [rewrite BK; assumption|eassumption|assumption].
    + destruct IH as (kp & KP & MP). assert (IN : h_init (f_h f) k <> InitNone) by (intros E; unfold starts_clean in SC; rewrite E in SC; discriminate).
      destruct (st_kind _ B k LK IN) as [FK _]. rewrite BK in FK. eapply md_branch; [exact MP|exact KP| |exact FK]. apply (st_edge _ B). assumption.
  - intros (k & K & M). revert b K. induction M as [k ox FR I W|k b b' k' M IH K SU F1]; intros b0 K0; destruct (st_file _ B b0 _ K0) as (LK & BK & _).
    + eapply mdo_here; [rewrite <- BK; assumption|exact K0|]. rewrite dirty_bit by assumption. exact (co_wr2 _ _ _ _ _ _ _ _ CO _ _ _ I W).
    + destruct (st_first _ B b' k' F1) as (_ & BK' & _ & NI & _). assert (b0 = b') as -> by congruence. specialize (IH b K).
      assert (FB : freach f b) by (destruct IH; assumption). destruct (st_rng _ B b b' SU) as [RB _]. specialize (NI ltac:(lia)).
      eapply (mdo_thru f _ b' k' b); [eapply fr_s; eassumption|exact K0| |apply (st_edge _ B); assumption|assumption]. unfold starts_clean. destruct (h_init (f_h f) k'); [contradiction|reflexivity|reflexivity].
Qed.

(** C21. The analysis terminates on every control flow graph, and its result is the
    set of registers that some path has modified since the last synchronisation. *)
Theorem dirty_flow_exact : forall f, built A own f -> (0 < f_n f)%nat ->
  exists F, forall fuel, (F <= fuel)%nat -> exists m, flow fuel f [0%nat] [] (fun _ => None) = Some m /\
  forall r b, mapped A r ->
    (Z.testbit (fl_out m b) (bit_idx r) = true <-> exists k, f_file f b = Some k /\ modified f r k) /\
    (Z.testbit (fl_in m b) (bit_idx r) = true <-> freach f b /\ exists p k, In p (f_preds f b) /\ f_file f p = Some k /\ modified f r k).
Proof.
  intros f BF N. pose proof (built_BI A own f BF) as BB. pose proof (proj2 BB) as B.
  destruct (flow_total f (st_edge _ B) (fun b t I => proj2 (proj1 (st_rng _ B b t I))) (nb_pos f BB N)) as (F & HF). exists F. intros fuel LF. destruct (HF fuel LF) as (m & M & Q).
  exists m. split; [assumption|]. intros r b MR. split.
  - rewrite (flow_out_bit f m Q b (bit_idx r)). apply mdo_modified; assumption.
  - rewrite (flow_in_bit f m Q b (bit_idx r)). split; intros [FR X]; (split; [assumption|]).
    + destruct X as (p & IP & M1). apply (mdo_modified f r BB MR) in M1. destruct M1 as (k & K & M1). exists p, k. auto.
    + destruct X as (p & k & IP & K & M1). exists p. split; [assumption|]. apply (mdo_modified f r BB MR). exists k. auto.
Qed.

(** C22. A register is stored only at points where some path has modified it since
    it was last loaded (in blocks that can be reached; others are deleted,
    function.cc:235). *)
Lemma modified_ext : forall P f f' r k, rext P f f' -> modified f r k -> modified f' r k.
Proof.
  intros P f f' r k X M. destruct (rx_shape _ _ _ X) as (E1 & E2 & E3 & E4 & E5 & E6 & E7 & E8 & E9 & E10).
  assert (FR : forall b, freach f b -> freach f' b). { intros b Y. induction Y as [|b s Y IH I]; [constructor|]. eapply fr_s; [exact IH|]. rewrite E6. assumption. }
  induction M as [k ox Y I W|k b b' k' M IH K SU F1].
  - eapply md_here; [rewrite E9; apply FR; exact Y|rewrite (rx_log _ _ _ X); exact I|exact W].
  - eapply md_branch; [exact IH|rewrite E4; exact K|rewrite E6; exact SU|rewrite E8; exact F1].
Qed.
Lemma hoist_mod : forall f m r, BI A own f -> mapped A r -> qinv f [] [] m -> forall fu b k b1 k1, f_file f b = Some k -> mdo f (bit_idx r) b ->
  hoist fu f m b k r = Some (b1, k1) -> modified f r k1.
Proof.
  intros f m r BB MR Q. induction fu as [|fu IH]; intros b k b1 k1 K M E; [discriminate|]. cbn [hoist] in E.
  assert (STOP : k1 = k -> modified f r k1). { intros ->. apply (mdo_modified f r BB MR) in M. destruct M as (k' & K' & M). congruence. }
  destruct (starts_clean (f_h f) k || Z.testbit (dirty_mask (f_h f) k) (bit_idx r)); [apply STOP; congruence|].
  destruct (filter _ (f_preds f b)) as [|p [|q l]] eqn:FI; try (apply STOP; congruence). destruct (f_succs f p) as [|x [|y l]]; try (apply STOP; congruence). destruct (f_file f p) as [kp|] eqn:KP; [|discriminate].
  eapply IH; [exact KP| |exact E]. apply (flow_out_bit f m Q).
  assert (X : In p (filter (fun p => Z.testbit (fl_out m p) (bit_idx r)) (f_preds f b))) by (rewrite FI; left; reflexivity). apply filter_In in X. apply X.
Qed.
Theorem unmodified_not_stored : forall is_undef f ord fuel L, undef_sound A is_undef -> built A own f -> (0 < f_n f)%nat -> all_blocks f ord ->
  finish A is_undef fuel f ord = Some L ->
  forall k r v, In (k, r, v) (l_stores L) -> freach f (f_bb f k) -> modified f r k.
Proof.
  intros is_undef f ord fuel L U BF N AB E k r v I FR. destruct (finish_finished is_undef f ord fuel L U BF N AB E) as (fu & m & FD). pose proof (built_BI A own f BF) as BB. pose proof BB as [CO B].
  destruct (sk_val _ _ _ _ _ _ _ _ _ (fd_st _ _ _ _ _ _ FD) k r v I) as (MR & _ & _). assert (AR : In r all_regs) by (eapply mapped_all; eassumption).
  destruct (sk_from _ _ _ _ _ _ _ _ _ (fd_st _ _ _ _ _ _ FD) k r v I) as (p & b & IP & T & HO). pose proof (fd_m _ _ _ _ _ _ FD) as Q. destruct (st_pack _ B p IP) as (LK & BP & _ & _).
  assert (HERE : pk_file p = k -> modified f r k).
  { intros <-. rewrite BP in FR. unfold regset in T. rewrite Z.lor_spec, dirty_bit in T by assumption. destruct (h_dirty (f_h f) (pk_file p) r) eqn:D.
    - destruct (co_wr _ _ _ _ _ _ _ _ CO _ _ D) as (ox & X1 & X2). eapply md_here; [rewrite BP; assumption|eassumption|assumption].
    - cbn [orb] in T. destruct (starts_clean (f_h f) (pk_file p)) eqn:SC; [rewrite Z.bits_0 in T; discriminate|]. apply (flow_in_bit f m Q) in T. destruct T as (_ & q & IQ & MQ).
      apply (mdo_modified f r BB MR) in MQ. destruct MQ as (kq & KQ & MQ). assert (IN : h_init (f_h f) (pk_file p) <> InitNone) by (intros X; unfold starts_clean in SC; rewrite X in SC; discriminate).
      destruct (st_kind _ B _ LK IN) as [FK _]. rewrite BP in FK. eapply md_branch; [exact MQ|exact KQ| |exact FK]. apply (st_edge _ B). assumption. }
  destruct fu as [|fu]; [discriminate|]. cbn [hoist] in HO. destruct (starts_clean (f_h f) (pk_file p) || Z.testbit (dirty_mask (f_h f) (pk_file p)) (bit_idx r)); [apply HERE; congruence|].
  destruct (filter _ (f_preds f (pk_bb p))) as [|q [|q2 l]] eqn:FI; try (apply HERE; congruence). destruct (f_succs f q) as [|x [|y l]]; try (apply HERE; congruence). destruct (f_file f q) as [kp|] eqn:KP; [|discriminate].
  eapply hoist_mod; try eassumption. apply (flow_out_bit f m Q).
  assert (X : In q (filter (fun p => Z.testbit (fl_out m p) (bit_idx r)) (f_preds f (pk_bb p)))) by (rewrite FI; left; reflexivity). apply filter_In in X. apply X.
Qed.

(** C18. PHI construction (and the store optimisation) terminates for every function
    and every order of visiting the blocks. There is at most one PHI node per block
    and register; it has exactly one value per predecessor, of the type of the node;
    all PHI nodes that values refer to have been completed. *)
Theorem phi_construction_complete : forall is_undef f ord, undef_sound A is_undef -> built A own f -> (0 < f_n f)%nat -> all_blocks f ord ->
  exists F, forall fuel, (F <= fuel)%nat -> exists L, finish A is_undef fuel f ord = Some L /\
  NoDup (map fst (l_phis L)) /\
  (forall b r inc, In (b, r, inc) (l_phis L) -> map fst inc = f_preds f b /\ NoDup (f_preds f b) /\ forall p v, In (p, v) inc -> v_ty v = nty A r /\ phis_in L v) /\
  (forall k r v, In (k, r, v) (l_stores L) -> phis_in L v) /\
  (forall o x k, In (o, x) (f_log f) -> file_of o = Some k -> Forall (phis_in L) (opvals o) /\ match x with Some v => phis_in L v | None => True end).
Proof.
  intros is_undef f ord U BF N AB. pose proof (built_BI A own f BF) as BB. destruct (finish_ok A own is_undef U f ord BB (nb_pos f BB N) AB) as (F & HF). exists F. intros fuel LF.
  destruct (HF fuel LF) as (m & L & _ & E & FD). exists L. split; [assumption|]. split; [apply FD|].
  assert (PI : forall k v, vin (aok A own (f_first (l_fn L)) (f_h (l_fn L)) k) v -> phis_in L v).
  { intros k v. apply vin_mono. intros [n t|b r|u r t]; cbn; auto. intros [I _]. apply FD. assumption. }
  pose proof (fd_ext _ _ _ _ _ _ FD) as X. split; [|split].
  - intros b r inc I. destruct (fd_phok _ _ _ _ _ _ FD b r inc I) as [PM IC]. destruct (rx_shape _ _ _ X) as (_ & _ & _ & _ & E5 & _). rewrite E5 in PM. split; [assumption|]. split; [apply (st_nd _ (proj2 BB))|].
    intros p v IV. destruct (IC p v IV) as (k & _ & V1 & V2 & _). split; [assumption|]. eapply PI; eassumption.
  - intros k r v I. destruct (sk_val _ _ _ _ _ _ _ _ _ (fd_st _ _ _ _ _ _ FD) k r v I) as (_ & _ & V1 & _). eapply PI; eassumption.
  - intros o x k I FO. pose proof (co_lat _ _ _ _ _ _ _ _ (proj1 (fd_BI _ _ _ _ _ _ FD))) as LA. rewrite (rx_log _ _ _ X) in LA. unfold lat in LA. rewrite Forall_forall in LA.
    destruct (LA (o, x) I k FO) as [Y1 Y2]. split; [|cbn [snd] in Y2; destruct x; [eapply PI; eassumption|constructor]]. eapply Forall_impl; [|exact Y1]. intros v. apply PI.
Qed.

(** C19. On every execution path, a value read from a register is what the source
    program's register contains at that point: the last value written, in whatever
    block that was, or the value it had when the CPU struct was last loaded. *)
Theorem values_across_blocks : forall is_undef f ord fuel L, undef_sound A is_undef -> built A own f -> (0 < f_n f)%nat -> all_blocks f ord ->
  finish A is_undef fuel f ord = Some L ->
  forall k e S R, reach A own L k e S R -> forall l2 c r fc v l1, f_log f = l2 ++ (OGet c k r fc, Some v) :: l1 ->
  ole (facet_of fc (seg_regs A e S R k l1 r)) (pv e v).
Proof.
  intros is_undef f ord fuel L U BF N AB E k e S R RE l2 c r fc v l1 LE. destruct (finish_finished is_undef f ord fuel L U BF N AB E) as (fu & m & FD).
  destruct (fin_hyps fu f m L N FD) as (H1 & H2 & H3 & H4 & H5 & H6 & H7). eapply (reads_ok A own L m fu H1 H2 H3 H4 H5 H6 H7 (fd_phok _ _ _ _ _ _ FD) (fd_keys _ _ _ _ _ _ FD)); [exact RE|].
  rewrite (rx_log _ _ _ (fd_ext _ _ _ _ _ _ FD)). exact LE.
Qed.

(** C20. On every execution path, at every call and return the CPU struct contains the
    source program's registers. *)
Theorem cpu_struct_in_sync : forall is_undef f ord fuel L, undef_sound A is_undef -> built A own f -> (0 < f_n f)%nat -> all_blocks f ord ->
  finish A is_undef fuel f ord = Some L ->
  forall k e S R, reach A own L k e S R -> forall p r, In p (f_packs f) -> pk_file p = k -> mapped A r ->
  ole (seg_regs A e S R k (f_log f) r) (rbits (end_slots L e S k r)).
Proof.
  intros is_undef f ord fuel L U BF N AB E k e S R RE p r IP PF MR. destruct (finish_finished is_undef f ord fuel L U BF N AB E) as (fu & m & FD).
  destruct (fin_hyps fu f m L N FD) as (H1 & H2 & H3 & H4 & H5 & H6 & H7). rewrite <- (rx_log _ _ _ (fd_ext _ _ _ _ _ _ FD)).
  eapply (sync_ok A own L m fu H1 H2 H3 H4 H5 H6 H7 (fd_phok _ _ _ _ _ _ FD) (fd_keys _ _ _ _ _ _ FD)); try eassumption.
  destruct (rx_shape _ _ _ (fd_ext _ _ _ _ _ _ FD)) as (_ & _ & _ & _ & _ & _ & -> & _). assumption.
Qed.

(** All paths are executions: from every state of the CPU struct, through every call
    (with any CPU struct afterwards) and along every edge. *)
Theorem all_paths_executable : forall is_undef f ord fuel L, undef_sound A is_undef -> built A own f -> (0 < f_n f)%nat -> all_blocks f ord ->
  finish A is_undef fuel f ord = Some L ->
  (forall S e, slots_ok A S -> env_ok A e -> exists e', reach A own L 0 e' S (fun r => rbits (S r))) /\
  (forall k e S R p k' S', reach A own L k e S R -> In p (f_packs f) -> pk_file p = k -> pk_next p = Some k' -> slots_ok A S' ->
     exists e', reach A own L k' e' S' (fun r => rbits (S' r))) /\
  (forall k e S R b b' k', reach A own L k e S R -> f_file f b = Some k -> In b' (f_succs f b) -> f_first f b' = Some k' ->
     exists e', reach A own L k' e' (end_slots L e S k) (seg_regs A e S R k (f_log f))).
Proof.
  intros is_undef f ord fuel L U BF N AB E. destruct (finish_finished is_undef f ord fuel L U BF N AB E) as (fu & m & FD).
  destruct (fin_hyps fu f m L N FD) as (H1 & H2 & H3 & H4 & H5 & H6 & H7). destruct (rx_shape _ _ _ (fd_ext _ _ _ _ _ _ FD)) as (_ & _ & _ & E4 & _ & E6 & E7 & E8 & _).
  rewrite <- (rx_log _ _ _ (fd_ext _ _ _ _ _ _ FD)), <- E4, <- E6, <- E7, <- E8. pose proof (fd_phok _ _ _ _ _ _ FD) as PO. pose proof (fd_keys _ _ _ _ _ _ FD) as PK.
  split; [|split].
  - intros S e SO EO. eapply entry_progress; eassumption.
  - intros k e S R p k' S' X IP P1 P2 SO. eapply call_progress; eassumption.
  - intros k e S R b b' k' X K SU F1. eapply branch_progress; try eassumption. apply FD.
Qed.
End Props.
Print Assumptions dirty_flow_exact.
Print Assumptions unmodified_not_stored.
Print Assumptions phi_construction_complete.
Print Assumptions values_across_blocks.
Print Assumptions cpu_struct_in_sync.
Print Assumptions all_paths_executable.

(** ** A function with a loop, a call and a return *)
Definition legal_run `{FpuOps} (A : arch) (own : nat -> nat) : fn -> list cop -> Prop :=
  fix go f l := match l with [] => True | o :: l' => clegal A own f o /\ match cexec1 A f o with Some f' => go f' l' | None => False end end.
Definition run `{FpuOps} (A : arch) : fn -> list cop -> fn :=
  fix go f l := match l with [] => f | o :: l' => match cexec1 A f o with Some f' => go f' l' | None => f end end.
Lemma run_built : forall `{FpuOps} A own l f, built A own f -> legal_run A own f l -> built A own (run A f l).
Proof.
  intros ? A own. induction l as [|o l IH]; intros f BF LG; [assumption|]. cbn [legal_run run] in *. destruct LG as [LG1 LG]. destruct (cexec1 A f o) as [f'|] eqn:E; [|contradiction].
  apply IH; [|assumption]. eapply built1; eassumption.
Qed.
(** A checker for [clegal], for reads and full writes of 64-bit general purpose
    registers with results of instructions. *)
Definition chk_tgt (f : fn) (t : nat) : bool :=
  (Nat.ltb 0 t && Nat.ltb t (f_nb f)) && match f_max f t with Some m => Nat.ltb (length (f_preds f t)) m | None => match f_first f t with None => true | _ => false end end.
Definition chk (A : arch) (own : nat -> nat) (f : fn) (o : cop) : bool :=
  match o with
  | CBlock _ => true
  | CEntry => Nat.eqb (f_n f) 0 && Nat.ltb 0 (f_nb f)
  | CInit b sl => (Nat.ltb 0 b && Nat.ltb b (f_nb f)) && (match f_first f b with None => true | _ => false end) && Nat.ltb 0 (f_n f) &&
                (negb sl || match f_max f b with None => true | _ => false end)
  | CReg b w => Nat.ltb b (f_nb f) && (match f_succs f b with [] => true | _ => false end) && existsb (areg_eqb (wreg w)) (map fst (reg_slots A)) &&
                match w with
                | WGet _ (GP _) I64 => true
                | WSet (GP _) v => ty_eqb (v_ty v) (TInt 64) &&
                    match v_e v with
                    | ELeaf (AVar n t) => ty_eqb t (TInt 64) && match f_file f b with Some k => Nat.leb (own n) k | None => true end
                    | _ => false
                    end
                | _ => false
                end
  | CCall b | CRet b => Nat.ltb b (f_nb f) && match f_succs f b with [] => true | _ => false end
  | CBr b t => Nat.ltb b (f_nb f) && chk_tgt f t
  | CCond b t o => Nat.ltb b (f_nb f) && chk_tgt f t && chk_tgt f o
  end.
Lemma chk_tgt_ok : forall f t, chk_tgt f t = true -> target_room f t.
Proof.
  intros f t C. unfold chk_tgt in C. rewrite !andb_true_iff, !Nat.ltb_lt in C. destruct C as (C1 & C2). split; [lia|].
  destruct (f_max f t); [apply Nat.ltb_lt; assumption|]. destruct (f_first f t); [discriminate|reflexivity].
Qed.
Lemma chk_ok : forall `{FpuOps} A own f o, chk A own f o = true -> clegal A own f o.
Proof.
  intros ? A own f o C. destruct o as [mx| |b sl|b w|b|b|b t|b t o]; cbn [chk clegal] in *; rewrite ?andb_true_iff, ?Nat.ltb_lt, ?Nat.eqb_eq in C.
  - exact I.
  - tauto.
  - destruct C as [[[C1 C2] C3] C4]. split; [assumption|]. split; [destruct (f_first f b); [discriminate|reflexivity]|]. split; [assumption|].
    intros ->. cbn [negb orb] in C4. destruct (f_max f b); [discriminate|reflexivity].
  - destruct C as [[[C1 C2] C3] C4]. split; [assumption|]. split; [destruct (f_succs f b); [reflexivity|discriminate]|]. split.
    + apply existsb_exists in C3. destruct C3 as (r & R1 & R2). apply areg_eqb_true in R2. unfold mapped. rewrite R2. assumption.
    + destruct w as [r v|r v|r tr v1 v2 v3|c r fc]; try discriminate.
      * destruct r as [i|i|i]; try discriminate. destruct v as [t ex]. cbn [v_ty v_e] in C4. apply andb_true_iff in C4. destruct C4 as [C4 C5]. apply ty_eqb_eq in C4. subst t.
        destruct ex as [[n t|b0 r0|u r0 t0]|w0 z|w0|o0 a0|o0 a0 b0|o0 a0 b0 c0|a0 b0 c0]; try discriminate. apply andb_true_iff in C5. destruct C5 as [C5 C6]. apply ty_eqb_eq in C5. subst t.
        cbn [wtyped wvals]. split.
        -- split.
           ++ intros e E. exists (e (AVar n (TInt 64))). split; [reflexivity|]. exact (E (AVar n (TInt 64))).
           ++ split; [vm_compute; tauto|]. change (64 <= 64). lia.
        -- intros k K. rewrite K in C6. constructor; [|constructor]. cbn. apply Nat.leb_le. assumption.
      * destruct r as [i|i|i]; try discriminate. destruct fc; try discriminate. cbn [wtyped wvals]. split; [|intros; constructor]. split; [vm_compute; tauto|]. change (64 <= 64). lia.
  - split; [apply C|]. destruct (f_succs f b); [reflexivity|destruct C; discriminate].
  - split; [apply C|]. destruct (f_succs f b); [reflexivity|destruct C; discriminate].
  - split; [apply C|]. apply chk_tgt_ok. apply C.
  - split; [apply C|]. split; apply chk_tgt_ok; apply C.
Qed.
Definition chk_run `{FpuOps} (A : arch) (own : nat -> nat) : fn -> list cop -> bool :=
  fix go f l := match l with [] => true | o :: l' => chk A own f o && match cexec1 A f o with Some f' => go f' l' | None => false end end.
Lemma chk_run_ok : forall `{FpuOps} A own l f, chk_run A own f l = true -> legal_run A own f l.
Proof.
  intros ? A own. induction l as [|o l IH]; intros f C; [exact I|]. cbn [chk_run legal_run] in *. apply andb_true_iff in C. destruct C as [C1 C2]. split; [apply chk_ok; assumption|].
  destruct (cexec1 A f o); [apply IH; assumption|discriminate].
Qed.

(** Block 1 is a loop that reads and writes x5; block 2 reads x6, calls a function and
    writes x7; block 3 returns. Instruction 0 is in block 1 (file 1), instruction 1 in
    block 2 after the call (file 3). *)
Definition own_ex (n : nat) : nat := match n with O => 1%nat | _ => 3%nat end.
Definition var64 (n : nat) : value := Val (TInt 64) (ELeaf (AVar n (TInt 64))).
Definition prog_ex : list cop :=
  [CBlock None; CEntry; CBlock (Some 2%nat); CBr 0 1; CInit 1 false; CReg 1 (WGet true (GP 5) I64); CReg 1 (WSet (GP 5) (var64 0));
   CBlock (Some 2%nat); CCond 1 1 2; CInit 2 false; CReg 2 (WGet true (GP 6) I64); CCall 2; CReg 2 (WSet (GP 7) (var64 1));
   CBlock None; CBr 2 3; CInit 3 true; CReg 3 (WGet true (GP 7) I64); CRet 3].
Definition f_ex : fn := @run fpu0 RV64 fn0 prog_ex.
Example f_ex_built : @built fpu0 RV64 own_ex f_ex.
Proof. apply (@run_built fpu0); [constructor|]. apply (@chk_run_ok fpu0). vm_compute. reflexivity. Qed.
Definition no_undef (v : value) : bool := false.
Lemma no_undef_ok : forall `{FpuOps} A, undef_sound A no_undef.
Proof. intros ? A v E. discriminate. Qed.
Example f_ex_hyps : (0 < f_n f_ex)%nat /\ all_blocks f_ex [3; 2; 1]%nat /\ map fst (map (fun p => (pk_file p, pk_next p)) (f_packs f_ex)) = [2; 4]%nat.
Proof.
  split; [vm_compute; lia|]. split; [|vm_compute; reflexivity]. intros b LB. change (f_nb f_ex) with 4%nat in LB. cbn. lia.
Qed.
(** The loop's PHI nodes are x5 and x6, the latter requested by block 2; x5 is stored
    before the call, at the end of block 2 (its predecessor 1 has two successors); x7
    before the return, in block 2 rather than in block 3. *)
Example f_ex_result : match finish RV64 no_undef 20 f_ex [3; 2; 1]%nat with
  | Some L => (map (fun x => (fst x, map fst (snd x))) (l_phis L), map fst (l_stores L)) =
      ([(2%nat, GP 6, [1%nat]); (2%nat, GP 5, [1%nat]); (1%nat, GP 5, [0; 1]%nat); (1%nat, GP 6, [0; 1]%nat)], [(2%nat, GP 5); (3%nat, GP 7)])
  | None => False end.
Proof. vm_compute. reflexivity. Qed.
(** The path entry, loop, loop, loop exit, call, return is an execution. *)
Definition s_ex : slots := fun r => if 0 <=? tsize (nty RV64 r) then V (nty RV64 r) (trunc (tsize (nty RV64 r)) 0x1234) else Poison (nty RV64 r).
Lemma s_ex_ok : slots_ok RV64 s_ex.
Proof. intros r. unfold s_ex. destruct (Z.leb_spec 0 (tsize (nty RV64 r))); split; try reflexivity; cbn. apply trunc_range. assumption. Qed.
Definition e0_ex : env := fun a => if 0 <=? tsize (aty RV64 a) then V (aty RV64 a) (trunc (tsize (aty RV64 a)) 7) else Poison (aty RV64 a).
Lemma e0_ex_ok : env_ok RV64 e0_ex.
Proof. intros a. unfold e0_ex. destruct (Z.leb_spec 0 (tsize (aty RV64 a))); split; try reflexivity; cbn. apply trunc_range. assumption. Qed.
Example f_ex_path : exists L e S R, finish RV64 no_undef 20 f_ex [3; 2; 1]%nat = Some L /\ @reach fpu0 RV64 own_ex L 4 e S R.
Proof.
  pose proof f_ex_result as X. destruct (finish RV64 no_undef 20 f_ex [3; 2; 1]%nat) as [L|] eqn:E; [|contradiction]. clear X. exists L. destruct f_ex_hyps as (N & AB & _).
  destruct (@all_paths_executable fpu0 RV64 own_ex no_undef f_ex _ 20 L (@no_undef_ok fpu0 RV64) f_ex_built N AB E) as (P1 & P2 & P3).
  destruct (P1 s_ex e0_ex s_ex_ok e0_ex_ok) as (e0 & R0).
  destruct (P3 _ _ _ _ 0%nat 1%nat 1%nat R0) as (e1 & R1); [reflexivity|vm_compute; auto|reflexivity|].
  destruct (P3 _ _ _ _ 1%nat 1%nat 1%nat R1) as (e2 & R2); [reflexivity|vm_compute; auto|reflexivity|].
  destruct (P3 _ _ _ _ 1%nat 2%nat 2%nat R2) as (e3 & R3); [reflexivity|vm_compute; auto|reflexivity|].
  destruct (P2 _ _ _ _ (Pack 2 2 (Some 3%nat)) 3%nat s_ex R3) as (e4 & R4); [vm_compute; auto|reflexivity|reflexivity|apply s_ex_ok|].
  destruct (P3 _ _ _ _ 2%nat 3%nat 4%nat R4) as (e5 & R5); [reflexivity|vm_compute; auto|reflexivity|].
  exists e5. eexists. eexists. split; [reflexivity|exact R5].
Qed.
