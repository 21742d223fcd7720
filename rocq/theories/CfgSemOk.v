(** In all executions of a finished function, values read from registers are the
    source program's register contents, and the CPU struct is up to date at calls
    and returns. *)

From Coq Require Import ZArith Lia ZifyBool List Bool.
From Verif Require Import Bits IR Facet Dsl RegFile RegFileOk RegScript Layout Cfg CfgHeap CfgLog CfgBuild FlowOk CfgFinish CfgSem.
Import ListNotations.
Open Scope Z_scope.

Section SemOk.
Context `{FpuOps}.
Variable A : arch.
Variable own : nat -> nat.
Variable L : lifted.
Variable m : flowmap.
Variable fuel : nat.
Notation f := (l_fn L).
Notation lg := (f_log (l_fn L)).
Notation kd := (kd A).
Notation env_ok := (env_ok A).
Notation mlog := (mlog A).
Notation rcell := (rcell A).
Notation mapped := (mapped A).
Notation BI := (BI A own).
Notation rdok := (rdok A own).
Notation nty := (nty A).
Notation seg_regs := (seg_regs A).
Notation reach := (reach A own L).
Notation end_slots := (end_slots L).
Notation seg_stores := (seg_stores L).

Hypothesis BB : BI f.
Hypothesis Q : qinv f [] [] m.
Hypothesis N0 : (0 < f_n f)%nat.
Hypothesis SV : forall k r v, In (k, r, v) (l_stores L) -> mapped r /\ rdok f k r v.
Hypothesis SF : forall k r v, In (k, r, v) (l_stores L) -> exists p b, In p (f_packs f) /\ Z.testbit (regset f m p) (bit_idx r) = true /\
                hoist fuel f m (pk_bb p) (pk_file p) r = Some (b, k).
Hypothesis SA : forall p r, In p (f_packs f) -> mapped r -> Z.testbit (regset f m p) (bit_idx r) = true ->
                exists b k, hoist fuel f m (pk_bb p) (pk_file p) r = Some (b, k) /\
                ((exists v, In (k, r, v) (l_stores L)) \/ forall e, env_ok e -> mlog e lg k r = None).
Hypothesis EL : forall k r, In (k, r) (h_loads (f_h f)) -> In (k, r) (l_early L) \/ h_dirty (f_h f) k r = false /\ h_init (f_h f) k = InitNone.
Hypothesis PO : forall b r inc, In (b, r, inc) (l_phis L) -> map fst inc = f_preds f b /\ incok A own f r inc.
Hypothesis PK : forall b r, In (b, r) (map fst (l_phis L)) <-> In (b, r) (h_phis (f_h f)).

Let CO := proj1 BB.
Let B := proj2 BB.

(** Values that exist in the finished function. *)
Definition created (a : atom) : bool :=
  match a with
  | AVar _ _ => true
  | APhi b r => existsb (fun x => Nat.eqb b (fst x) && areg_eqb r (snd x)) (h_phis (f_h f))
  | ASlot u r t => existsb (fun x => Nat.eqb u (fst x) && areg_eqb r (snd x)) (h_loads (f_h f)) && ty_eqb t (nty r)
  end.
Lemma exists_in : forall (l : list (nat * areg)) b r, existsb (fun x => Nat.eqb b (fst x) && areg_eqb r (snd x)) l = true <-> In (b, r) l.
Proof.
  intros l b r. rewrite existsb_exists. split.
  - intros ([b' r'] & I & E). apply andb_true_iff in E. cbn in E. destruct E as [E1 E2]. apply Nat.eqb_eq in E1. apply areg_eqb_true in E2. congruence.
  - intros I. exists (b, r). split; [assumption|]. cbn. apply keq_refl.
Qed.
Lemma created_phi : forall b r, created (APhi b r) = true <-> In (b, r) (h_phis (f_h f)).
Proof. intros. apply exists_in. Qed.
Lemma created_slot : forall u r, created (ASlot u r (nty r)) = true <-> In (u, r) (h_loads (f_h f)).
Proof. intros u r. cbn. rewrite ty_eqb_refl, andb_true_r. apply exists_in. Qed.
Lemma aok_created : forall k a, aok A own (f_first f) (f_h f) k a -> created a = true.
Proof.
  intros k [n t|b r|u r t] X; cbn [aok] in X.
  - reflexivity.
  - apply created_phi. tauto.
  - destruct X as (X & _ & ->). apply created_slot. assumption.
Qed.
Definition sim (e es : env) : Prop := env_ok es /\ forall a, created a = true -> es a = e a.

Lemma sim_pv : forall e es k v, sim e es -> vin (aok A own (f_first f) (f_h f) k) v -> pv es v = pv e v.
Proof. intros e es k v [_ S] V. apply pv_vin. eapply vin_mono; [|exact V]. intros a X. apply S. eapply aok_created. eassumption. Qed.
Lemma sim_vev : forall e es k v, sim e es -> vin (aok A own (f_first f) (f_h f) k) v -> vev es (v_e v) = vev e (v_e v).
Proof. intros e es k v [_ S] V. apply vev_ain. eapply ain_mono; [|exact V]. intros a X. apply S. eapply aok_created. eassumption. Qed.

(** What holds of every segment. *)
Record good (k : nat) (e : env) (S : slots) (R : regs) : Prop := {
  gd_lt : (k < f_n f)%nat;
  gd_fr : freach f (f_bb f k);
  gd_env : env_ok e;
  gd_slots : slots_ok A S;
  gd_sim : exists es, sim e es /\ forall r, mapped r ->
           match h_init (f_h f) k with InitNone => es (ASlot k r (nty r)) = S r /\ R r = rbits (S r) | _ => ole (R r) (mbase A es lg k r) end;
  gd_mem : forall r, mapped r -> h_init (f_h f) k <> InitNone -> Z.testbit (fl_in m (f_bb f k)) (bit_idx r) = false -> ole (R r) (rbits (S r));
}.

Lemma nlog_n : nlog lg = f_n f. Proof. apply (co_n _ _ _ _ _ _ _ _ CO). Qed.
Lemma ilog_init : forall k, ilog lg k = h_init (f_h f) k. Proof. apply (co_init _ _ _ _ _ _ _ _ CO). Qed.
Lemma wfl : wflog A lg. Proof. apply (co_wf _ _ _ _ _ _ _ _ CO). Qed.
Lemma wflog_app : forall l2 l1, wflog A (l2 ++ l1) -> wflog A l1.
Proof. induction l2 as [|[o x] l2 IH]; intros l1 W; [assumption|]. apply IH. exact (proj1 W). Qed.
Lemma ilog_app : forall l2 l1 k, (k < nlog l1)%nat -> ilog (l2 ++ l1) k = ilog l1 k /\ (nlog l1 <= nlog (l2 ++ l1))%nat.
Proof.
  induction l2 as [|[o x] l2 IH]; intros l1 k LK; [split; [reflexivity|apply le_n]|]. destruct (IH l1 k LK) as [E LE]. cbn [app]. destruct o; cbn [ilog nlog next]; try (split; [assumption|lia]).
  destruct (Nat.eqb_spec k (nlog (l2 ++ l1))); [lia|]. split; [assumption|lia].
Qed.
Lemma mbase_app : forall e l2 l1 k r, wflog A (l2 ++ l1) -> (k < nlog l1)%nat -> mbase A e (l2 ++ l1) k r = mbase A e l1 k r.
Proof.
  intros e l2 l1 k r W LK. unfold mbase. rewrite (proj1 (ilog_app l2 l1 k LK)). destruct (ilog l1 k) eqn:IL; try reflexivity. exact (mlog_final A own (fun _ => None) e l2 l1 _ k r W IL).
Qed.
Lemma pv_leaf : forall (e : env) t a, pv e (Val t (ELeaf a)) = rbits (e a).
Proof. intros. unfold pv, vev. cbn. destruct (e a); reflexivity. Qed.

(** Register contents after the operations [l1] of a segment. *)
Lemma cell_ok : forall k e S R, good k e S R -> exists es, sim e es /\ forall r l2 l1, mapped r -> lg = l2 ++ l1 -> (k < nlog l1)%nat ->
  (h_init (f_h f) k = InitNone -> forall e s x x', rcell e k r s x l1 = rcell e k r s x' l1) ->
  ole (seg_regs e S R k l1 r) (mlog es l1 k r).
Proof.
  intros k e S R G. destruct (gd_sim _ _ _ _ G) as (es & SM & GS). exists es. split; [assumption|]. intros r l2 l1 MR LE LK ND. specialize (GS r MR).
  assert (W : wflog A (l2 ++ l1)) by (rewrite <- LE; apply wfl). rewrite (mlog_cell A es l1 k r (wflog_app _ _ W) LK).
  assert (VA : Forall (fun ox : rop * option value => file_of (fst ox) = Some k -> Forall (fun v => pv e v = pv es v) (opvals (fst ox))) l1).
  { pose proof (co_lat _ _ _ _ _ _ _ _ CO) as LA. rewrite LE in LA. apply Forall_app in LA. destruct LA as [_ LA].
    eapply (lat_agree (aok A own (f_first f) (f_h f))); [exact LA|]. intros a X. symmetry. apply SM. eapply aok_created. eassumption. }
  unfold CfgSem.seg_regs. rewrite <- (mbase_app es l2 l1 k r W LK), <- LE.
  destruct (h_init (f_h f) k) eqn:IN.
  - destruct GS as [GS RS]. rewrite (ND eq_refl e (rbits (S r)) (R r) (mbase A es lg k r)). apply rcell_mono; [|apply ole_refl|assumption].
    unfold slot_val. rewrite pv_leaf, GS. apply ole_refl.
  - rewrite (rcell_noload A own l1 k r (wflog_app _ _ W)) with (s' := pv es (slot_val A k r)); try assumption.
    + apply rcell_mono; [apply ole_refl|assumption|assumption].
    + pose proof (co_rl _ _ _ _ _ _ _ _ CO) as RL. rewrite LE in RL. eapply ldlog_app. exact RL.
    + rewrite <- (proj1 (ilog_app l2 l1 k LK)), <- LE, ilog_init. congruence.
  - rewrite (rcell_noload A own l1 k r (wflog_app _ _ W)) with (s' := pv es (slot_val A k r)); try assumption.
    + apply rcell_mono; [apply ole_refl|assumption|assumption].
    + pose proof (co_rl _ _ _ _ _ _ _ _ CO) as RL. rewrite LE in RL. eapply ldlog_app. exact RL.
    + rewrite <- (proj1 (ilog_app l2 l1 k LK)), <- LE, ilog_init. congruence.
Qed.

Lemma end_ok : forall k e S R, good k e S R -> exists es, sim e es /\ forall r, mapped r -> ole (seg_regs e S R k lg r) (mlog es lg k r).
Proof.
  intros k e S R G. destruct (cell_ok k e S R G) as (es & SM & C). exists es. split; [assumption|]. intros r MR. apply (C r [] lg MR eq_refl).
  - rewrite nlog_n. apply (gd_lt _ _ _ _ G).
  - intros IN. apply (co_ld _ _ _ _ _ _ _ _ CO k r IN MR (gd_lt _ _ _ _ G)). auto.
Qed.

(** ** Stores *)
Lemma store_ok : forall k e S R r v, good k e S R -> In (k, r, v) (l_stores L) ->
  ole (seg_regs e S R k lg r) (pv e v) /\ exists x, vev e (v_e v) = Ok x /\ ty_of x = nty r /\ wf_rv x.
Proof.
  intros k e S R r v G I. destruct (SV k r v I) as (MR & V1 & V2 & V3 & V4). destruct (end_ok k e S R G) as (es & SM & C). split.
  - rewrite <- (sim_pv e es k v SM V1). eapply ole_trans; [apply C; assumption|]. apply V4. apply SM.
  - destruct (V3 e (gd_env _ _ _ _ G)) as (x & X1 & X2 & X3). exists x. rewrite <- V2. auto.
Qed.
Lemma do_stores_none : forall e l S r, (forall k v, ~ In (k, r, v) l) -> do_stores e S l r = S r.
Proof.
  intros e. unfold do_stores. induction l as [|[[k0 r0] v0] l IH]; intros S r N; [reflexivity|]. cbn [fold_left]. rewrite IH by (intros k v I; apply (N k v); right; assumption).
  cbn [store1]. destruct (areg_eqb r0 r) eqn:E; [|reflexivity]. apply areg_eqb_true in E. subst r0. destruct (N k0 v0). left. reflexivity.
Qed.
Lemma do_stores_ok : forall e r x l S, (forall k v, In (k, r, v) l -> ole x (pv e v) /\ exists y, vev e (v_e v) = Ok y) ->
  (ole x (rbits (S r)) \/ exists k v, In (k, r, v) l) -> ole x (rbits (do_stores e S l r)).
Proof.
  intros e r x. unfold do_stores. induction l as [|[[k0 r0] v0] l IH]; intros S N O; [destruct O as [O|(k & v & [])]; assumption|]. cbn [fold_left].
  apply IH; [intros k v I; apply (N k v); right; assumption|]. cbn [store1]. destruct (areg_eqb r0 r) eqn:E.
  - apply areg_eqb_true in E. subst r0. left. destruct (N k0 v0 (or_introl eq_refl)) as [N1 (y & N2)]. rewrite N2. unfold pv in N1. rewrite N2 in N1. destruct y; exact N1.
  - destruct O as [O|(k & v & [I|I])]; [left; assumption| |right; exists k, v; assumption]. injection I as _ -> _.
    exfalso. clear -E. destruct r as [i|i|i]; cbn in E; rewrite Z.eqb_refl in E; discriminate.
Qed.
Lemma do_stores_slots : forall e l S, slots_ok A S -> (forall k r v, In (k, r, v) l -> exists x, vev e (v_e v) = Ok x /\ ty_of x = nty r /\ wf_rv x) -> slots_ok A (do_stores e S l).
Proof.
  intros e. unfold do_stores. induction l as [|[[k0 r0] v0] l IH]; intros S SO N; [assumption|]. cbn [fold_left]. apply IH; [|intros k r v I; apply (N k r v); right; assumption].
  intros r. cbn [store1]. destruct (areg_eqb r0 r) eqn:E; [|apply SO]. apply areg_eqb_true in E. subst r0. destruct (N k0 r v0 (or_introl eq_refl)) as (x & -> & X). exact X.
Qed.
Lemma seg_in : forall k st, In st (seg_stores k) <-> In st (l_stores L) /\ fst (fst st) = k.
Proof. intros k st. unfold CfgSem.seg_stores. rewrite filter_In, Nat.eqb_eq. reflexivity. Qed.
Lemma ends_ok : forall k e S R r, good k e S R -> (ole (seg_regs e S R k lg r) (rbits (S r)) \/ exists v, In (k, r, v) (l_stores L)) ->
  ole (seg_regs e S R k lg r) (rbits (end_slots e S k r)).
Proof.
  intros k e S R r G O. unfold CfgSem.end_slots. apply do_stores_ok.
  - intros k0 v I. apply seg_in in I. destruct I as [I E]. cbn in E. subst k0. destruct (store_ok k e S R r v G I) as [X (y & Y & _)]. split; [assumption|exists y; assumption].
  - destruct O as [O|(v & I)]; [left; assumption|]. right. exists k, v. apply seg_in. auto.
Qed.
Lemma ends_slots : forall k e S R, good k e S R -> slots_ok A (end_slots e S k).
Proof.
  intros k e S R G. apply do_stores_slots; [apply (gd_slots _ _ _ _ G)|]. intros k0 r v I. apply seg_in in I. destruct I as [I E]. cbn in E. subst k0. apply (store_ok k e S R r v G I).
Qed.

Lemma nodirty_ok : forall k e S R r, good k e S R -> mapped r -> h_dirty (f_h f) k r = false ->
  (h_init (f_h f) k = InitNone \/ Z.testbit (fl_in m (f_bb f k)) (bit_idx r) = false) -> ole (seg_regs e S R k lg r) (rbits (S r)).
Proof.
  intros k e S R r G MR D O. pose proof (gd_lt _ _ _ _ G) as LK. unfold CfgSem.seg_regs.
  assert (DE : h_init (f_h f) k = InitNone \/ h_init (f_h f) k <> InitNone) by (destruct (h_init (f_h f) k); [left; reflexivity|right; discriminate|right; discriminate]).
  destruct DE as [IN|IN].
  - rewrite (co_load _ _ _ _ _ _ _ _ CO k r D IN MR LK) by auto. apply ole_refl.
  - rewrite (co_clean _ _ _ _ _ _ _ _ CO k r D IN). destruct O as [O|O]; [contradiction|]. apply (gd_mem _ _ _ _ G); assumption.
Qed.
Lemma clean_init : forall k, starts_clean (f_h f) k = true <-> h_init (f_h f) k = InitNone.
Proof. intros k. unfold starts_clean. destruct (h_init (f_h f) k); split; try discriminate; reflexivity. Qed.
Lemma out_false : forall b k r, freach f b -> f_file f b = Some k -> mapped r -> Z.testbit (fl_out m b) (bit_idx r) = false ->
  h_dirty (f_h f) k r = false /\ (h_init (f_h f) k = InitNone \/ Z.testbit (fl_in m (f_bb f k)) (bit_idx r) = false).
Proof.
  intros b k r FR K MR T. destruct (done_pre f m Q b FR) as [_ E]. rewrite E, post_bit, K in T. apply orb_false_iff in T. destruct T as [T1 T2].
  rewrite dirty_bit in T1 by (eapply mapped_all; eassumption). split; [assumption|]. destruct (starts_clean (f_h f) k) eqn:SC; [left; apply clean_init; assumption|].
  right. cbn [negb andb] in T2. rewrite (proj1 (proj2 (st_file _ B b k K))). assumption.
Qed.
Lemma branch_mem : forall k e S R b r, good k e S R -> f_file f b = Some k -> mapped r -> Z.testbit (fl_out m b) (bit_idx r) = false ->
  ole (seg_regs e S R k lg r) (rbits (end_slots e S k r)).
Proof.
  intros k e S R b r G K MR T. apply ends_ok; [assumption|]. left.
  assert (FR : freach f b). { pose proof (gd_fr _ _ _ _ G) as X. rewrite (proj1 (proj2 (st_file _ B b k K))) in X. assumption. }
  destruct (out_false b k r FR K MR T). apply nodirty_ok; assumption.
Qed.

(** ** Late loads *)
Lemma hoist_clean : forall r, mapped r -> forall fu b k b' k', f_file f b = Some k -> freach f b -> Z.testbit (fl_out m b) (bit_idx r) = true ->
  hoist fu f m b k r = Some (b', k') -> h_init (f_h f) k' = InitNone -> h_dirty (f_h f) k' r = true.
Proof.
  intros r MR. assert (AR : In r all_regs) by (eapply mapped_all; eassumption). induction fu as [|fu IH]; intros b k b' k' K FR T E IN; [discriminate|]. cbn [hoist] in E.
  rewrite dirty_bit in E by assumption. destruct (starts_clean (f_h f) k || h_dirty (f_h f) k r) eqn:ST.
  - injection E as <- <-. destruct (done_pre f m Q b FR) as [_ EO]. rewrite EO, post_bit, K, (proj2 (clean_init k) IN) in T. cbn [negb andb] in T. rewrite orb_false_r, dirty_bit in T by assumption. assumption.
  - apply orb_false_iff in ST. destruct ST as [SC _].
    destruct (filter _ (f_preds f b)) as [|p [|q l]] eqn:FI; try (injection E as <- <-; apply clean_init in IN; congruence).
    destruct (f_succs f p) as [|x [|y l]]; try (injection E as <- <-; apply clean_init in IN; congruence). destruct (f_file f p) as [kp|] eqn:KP; [|discriminate].
    assert (X : In p (filter (fun p => Z.testbit (fl_out m p) (bit_idx r)) (f_preds f b))) by (rewrite FI; left; reflexivity). apply filter_In in X. destruct X as [_ X].
    eapply IH; [exact KP| |exact X|exact E|assumption]. pose proof (proj1 (flow_out_bit f m Q p (bit_idx r)) X) as MD. destruct MD; assumption.
Qed.
Lemma clean_store : forall k r v, In (k, r, v) (l_stores L) -> h_init (f_h f) k = InitNone -> h_dirty (f_h f) k r = true.
Proof.
  intros k r v I IN. destruct (SV k r v I) as [MR _]. destruct (SF k r v I) as (p & b & IP & T & E). assert (AR : In r all_regs) by (eapply mapped_all; eassumption).
  unfold regset in T. rewrite Z.lor_spec, dirty_bit in T by assumption.
  destruct fuel as [|fu]; [discriminate|]. cbn [hoist] in E. rewrite dirty_bit in E by assumption. destruct (starts_clean (f_h f) (pk_file p)) eqn:SC; cbn [orb] in E.
  - injection E as <- <-. rewrite Z.bits_0, orb_false_r in T. assumption.
  - destruct (h_dirty (f_h f) (pk_file p) r) eqn:D; [injection E as <- <-; assumption|].
    destruct (filter _ (f_preds f (pk_bb p))) as [|q [|q2 l]] eqn:FI; try (injection E as <- <-; apply clean_init in IN; congruence).
    destruct (f_succs f q) as [|x [|y l]]; try (injection E as <- <-; apply clean_init in IN; congruence). destruct (f_file f q) as [kp|] eqn:KP; [|discriminate].
    assert (X : In q (filter (fun p => Z.testbit (fl_out m p) (bit_idx r)) (f_preds f (pk_bb p)))) by (rewrite FI; left; reflexivity). apply filter_In in X. destruct X as [_ X].
    eapply (hoist_clean r MR fu q kp b k KP); try assumption. pose proof (proj1 (flow_out_bit f m Q q (bit_idx r)) X) as MD. destruct MD; assumption.
Qed.
Lemma load_val : forall k e S r, loads_ok A L k e S -> h_init (f_h f) k = InitNone -> In (k, r) (h_loads (f_h f)) -> e (ASlot k r (nty r)) = S r.
Proof.
  intros k e S r LO IN I. destruct (LO r I) as [L1 L2].
  assert (DE : In (k, r) (l_early L) \/ ~ In (k, r) (l_early L)).
  { destruct (existsb (fun x => Nat.eqb k (fst x) && areg_eqb r (snd x)) (l_early L)) eqn:E; [left; apply exists_in; assumption|right]. intros X. apply exists_in in X. congruence. }
  destruct DE as [IE|IE]; [auto|]. destruct (L2 IE) as (l1 & l2 & SG & ->). apply do_stores_none. intros k0 v X.
  assert (Y : In (k0, r, v) (seg_stores k)) by (rewrite SG; apply in_or_app; auto). apply seg_in in Y. destruct Y as [Y E]. cbn in E. subst k0.
  destruct (EL k r I) as [Z0|[Z0 _]]; [contradiction|]. rewrite (clean_store k r v Y IN) in Z0. discriminate.
Qed.

(** ** The ghost values of the next segment *)
Definition upd_env (es e' : env) (k' : nat) (S' : slots) (b' : nat) (P : areg -> option rv) : env := fun a =>
  if created a then e' a else
  match a with
  | AVar _ _ => es a
  | APhi b r => if Nat.eqb b b' then match P r with Some x => x | None => es a end else es a
  | ASlot u r t => if Nat.eqb u k' && ty_eqb t (nty r) then S' r else es a
  end.
Lemma upd_env_sim : forall es e' k' S' b' P, env_ok es -> env_ok e' -> slots_ok A S' -> (forall r x, P r = Some x -> ty_of x = nty r /\ wf_rv x) -> sim e' (upd_env es e' k' S' b' P).
Proof.
  intros es e' k' S' b' P E1 E2 SO PT. split.
  - intros a. unfold upd_env. destruct (created a); [apply E2|]. destruct a as [n t|b r|u r t]; [apply E1| |].
    + destruct (Nat.eqb b b'); [|apply E1]. destruct (P r) eqn:PR; [exact (PT r r0 PR)|apply E1].
    + destruct (Nat.eqb u k' && ty_eqb t (nty r)) eqn:X; [|apply E1]. apply andb_true_iff in X. destruct X as [_ X]. apply ty_eqb_eq in X. subst t. apply SO.
  - intros a C. unfold upd_env. rewrite C. reflexivity.
Qed.
Lemma good_clean : forall k e S es, (k < f_n f)%nat -> h_init (f_h f) k = InitNone -> freach f (f_bb f k) -> env_ok e -> env_ok es -> slots_ok A S -> loads_ok A L k e S ->
  good k e S (fun r => rbits (S r)).
Proof.
  intros k e S es LK IN FR E ES SO LO. split; try assumption.
  - exists (upd_env es e k S 0 (fun _ => None)). split; [apply upd_env_sim; try assumption; discriminate|]. intros r MR. rewrite IN. split; [|reflexivity].
    unfold upd_env. destruct (created (ASlot k r (nty r))) eqn:C.
    + apply load_val; try assumption. apply created_slot. assumption.
    + rewrite Nat.eqb_refl, ty_eqb_refl. reflexivity.
  - contradiction.
Qed.

(** What a predecessor would contribute to a PHI node. *)
Definition pread (es : env) (k : nat) (r : areg) : option rv :=
  if existsb (areg_eqb r) (map fst (reg_slots A)) then
    match get_reg A false (f_h f) k r (native_facet A r) with
    | Some (_, v) => match vev es (v_e v) with Ok x => Some x | _ => None end
    | None => None
    end
  else None.
Lemma pread_ok : forall es k r, env_ok es -> (k < f_n f)%nat -> mapped r -> exists x, pread es k r = Some x /\ ole (mlog es lg k r) (rbits x).
Proof.
  intros es k r E LK MR. unfold pread.
  assert (M : existsb (areg_eqb r) (map fst (reg_slots A)) = true). { apply existsb_exists. exists r. split; [exact MR|]. destruct r as [i|i|i]; cbn; apply Z.eqb_refl. }
  rewrite M. destruct (read_native A own f k r BB LK MR) as (h & v & G & _ & _ & RD). rewrite G. destruct RD as (_ & V2 & V3 & V4). specialize (V4 es E). cbn [f_log with_h] in V4.
  destruct (V3 es E) as (x & X1 & X2 & X3). unfold pv in V4. rewrite X1 in *. exists x. split; [reflexivity|]. destruct x; exact V4.
Qed.
Lemma pread_ty : forall es k r x, env_ok es -> (k < f_n f)%nat -> pread es k r = Some x -> ty_of x = nty r /\ wf_rv x.
Proof.
  intros es k r x E LK P. unfold pread in P. destruct (existsb (areg_eqb r) (map fst (reg_slots A))) eqn:M; [|discriminate]. apply existsb_exists in M. destruct M as (r' & MR & ER).
  apply areg_eqb_true in ER. subst r'. destruct (read_native A own f k r BB LK MR) as (h & v & G & _ & _ & RD). rewrite G in P. destruct RD as (_ & V2 & V3 & _).
  destruct (V3 es E) as (y & X1 & X2 & X3). rewrite X1 in P. injection P as <-. rewrite <- V2. auto.
Qed.

Lemma good_branch : forall k e S R b b' k' e', good k e S R -> f_file f b = Some k -> In b' (f_succs f b) -> f_first f b' = Some k' ->
  env_ok e' -> (forall a, owner own L a <> Some k' -> e' a = e a) ->
  (forall r inc, In (b', r, inc) (l_phis L) -> exists v, In (b, v) inc /\ vev e (v_e v) = Ok (e' (APhi b' r))) ->
  good k' e' (end_slots e S k) (seg_regs e S R k lg).
Proof.
  intros k e S R b b' k' e' G K SU F1 E' OW PH. destruct (st_first _ B b' k' F1) as (LK' & BK' & LB' & NI & _). destruct (st_rng _ B b b' SU) as [RB _].
  specialize (NI ltac:(lia)). assert (PB : In b (f_preds f b')) by (apply (st_edge _ B); assumption).
  assert (FB : freach f b). { pose proof (gd_fr _ _ _ _ G) as X. rewrite (proj1 (proj2 (st_file _ B b k K))) in X. assumption. }
  assert (FB' : freach f b') by (eapply fr_s; eassumption).
  pose proof (ends_slots k e S R G) as SO. destruct (end_ok k e S R G) as (es & SM & EO). pose proof (proj1 SM) as ES.
  split; try assumption.
  - rewrite BK'. assumption.
  - exists (upd_env es e' k' (end_slots e S k) b' (pread es k)).
    split; [apply upd_env_sim; try assumption; intros r x; apply pread_ty; [assumption|apply (gd_lt _ _ _ _ G)]|]. intros r MR.
    assert (X : ole (seg_regs e S R k lg r) (mbase A (upd_env es e' k' (end_slots e S k) b' (pread es k)) lg k' r)).
    { eapply ole_trans; [apply EO; assumption|]. unfold mbase. rewrite ilog_init. destruct (h_init (f_h f) k') as [|p|bb] eqn:IN; [contradiction| |].
      - (* the only predecessor's file *)
        destruct (st_par _ B k' p IN) as (q & PQ & FQ & _). rewrite BK' in PQ. rewrite PQ in PB. destruct PB as [->|[]]. assert (p = k) as -> by congruence.
        pose proof (ho_ipar _ _ _ _ (co_hok _ _ _ _ _ _ _ _ CO) _ _ IN) as LKK.
        rewrite (mlog_dep A own (f_first f) lg es (upd_env es e' k' (end_slots e S k) b' (pread es k)) wfl); [apply ole_refl| | |rewrite nlog_n; apply (gd_lt _ _ _ _ G)|].
        + eapply lat_mono; [|apply (co_lat _ _ _ _ _ _ _ _ CO)]. intros k0 a. apply aok_old.
        + intros k0 b0 X0. rewrite ilog_init in X0. apply (ho_iphi _ _ _ _ (co_hok _ _ _ _ _ _ _ _ CO)). assumption.
        + intros a OA. unfold upd_env. destruct (created a) eqn:C.
          * rewrite OW; [apply SM; assumption|]. destruct a as [n t|b0 r0|u r0 t]; cbn [owner oldatom] in *.
            -- intros X0. injection X0 as X0. lia.
            -- destruct OA as (j & J1 & J2). rewrite J1. intros X0. injection X0 as X0. lia.
            -- intros X0. injection X0 as X0. lia.
          * destruct a as [n t|b0 r0|u r0 t]; cbn [oldatom] in *; [reflexivity| |].
            -- destruct OA as (j & J1 & J2). destruct (Nat.eqb_spec b0 b'); [|reflexivity]. exfalso. assert (j = k') by congruence. lia.
            -- destruct (Nat.eqb_spec u k'); [lia|]. reflexivity.
      - (* PHI nodes *)
        pose proof (ho_iphi _ _ _ _ (co_hok _ _ _ _ _ _ _ _ CO) _ _ IN) as FBB. assert (bb = b') as ->. { destruct (st_first _ B bb k' FBB) as (_ & X & _). congruence. }
        unfold phi_val. rewrite pv_leaf. unfold upd_env. destruct (created (APhi b' r)) eqn:C.
        + apply created_phi in C. apply PK in C. apply in_map_iff in C. destruct C as ([[b0 r0] inc] & E0 & I0). cbn in E0. injection E0 as -> ->.
          destruct (PH r inc I0) as (v & IV & VV). destruct (PO b' r inc I0) as [_ IC]. destruct (IC b v IV) as (k0 & K0 & RD). assert (k0 = k) as -> by congruence.
          destruct RD as (V1 & V2 & V3 & V4). specialize (V4 es ES). rewrite (sim_pv e es k v SM V1) in V4. unfold pv in V4. rewrite VV in V4.
          destruct (e' (APhi b' r)); exact V4.
        + rewrite Nat.eqb_refl. destruct (pread_ok es k r ES (gd_lt _ _ _ _ G) MR) as (x & -> & X). exact X. }
    destruct (h_init (f_h f) k'); [contradiction|exact X|exact X].
  - intros r MR _ T. rewrite BK' in T. eapply branch_mem; [exact G|exact K|assumption|]. destruct (done_pre f m Q b' FB') as [EI _]. rewrite EI, pre_bit in T.
    destruct (Z.testbit (fl_out m b) (bit_idx r)) eqn:TB; [|reflexivity]. assert (X : existsb (fun p => Z.testbit (fl_out m p) (bit_idx r)) (f_preds f b') = true) by (apply existsb_exists; exists b; auto). congruence.
Qed.

Theorem reach_good : forall k e S R, reach k e S R -> good k e S R.
Proof.
  intros k e S R X. induction X as [e S E SO LO|k e S R p k' e' S' X G IP PK0 PN E' SO OW LO|k e S R b b' k' e' X G K SU F1 E' OW PH LO].
  - destruct (st_0 _ B N0) as [F0 I0]. apply (good_clean 0 e S e); try assumption. rewrite (proj1 (proj2 (st_first _ B _ _ F0))). constructor.
  - destruct (st_pack _ B p IP) as (_ & BP & _ & NX). destruct (NX k' PN) as (LK' & IN & BK'). destruct (gd_sim _ _ _ _ G) as (es & [ES _] & _).
    apply (good_clean k' e' S' es); try assumption. pose proof (gd_fr _ _ _ _ G) as FR. congruence.
  - eapply good_branch; eassumption.
Qed.

(** ** The theorems *)
Lemma rlog_app : forall e l2 o x l1, rlog A e (l2 ++ (o, x) :: l1) -> out_ok e (mlog e l1) o x.
Proof. intros e. induction l2 as [|[o' x'] l2 IH]; intros o x l1 R; [exact (proj2 R)|]. apply IH. exact (proj1 R). Qed.
Lemma facet_of_mono : forall fc a b, ole a b -> ole (facet_of fc a) (facet_of fc b).
Proof. intros fc a b O z E. destruct a as [z0|]; [|discriminate]. rewrite (O z0 eq_refl). assumption. Qed.
Theorem reads_ok : forall k e S R, reach k e S R -> forall l2 c r fc v l1, lg = l2 ++ (OGet c k r fc, Some v) :: l1 ->
  ole (facet_of fc (seg_regs e S R k l1 r)) (pv e v).
Proof.
  intros k e S R X l2 c r fc v l1 E. pose proof (reach_good _ _ _ _ X) as G. destruct (cell_ok k e S R G) as (es & SM & C).
  pose proof (co_reads _ _ _ _ _ _ _ _ CO es (proj1 SM)) as RL. rewrite E in RL. apply rlog_app in RL. destruct RL as [_ RL].
  pose proof wfl as W. rewrite E in W. apply wflog_app in W. destruct W as [_ W]. cbn [wfop] in W.
  pose proof (co_rl _ _ _ _ _ _ _ _ CO) as LD. rewrite E in LD. apply ldlog_app in LD. destruct LD as [_ [MR LD]].
  pose proof (co_lat _ _ _ _ _ _ _ _ CO) as LA. rewrite E in LA. apply Forall_app in LA. destruct LA as [_ LA]. inversion LA as [|? ? LA1 _]; subst. destruct (LA1 k eq_refl) as [_ VI]. cbn [snd] in VI.
  rewrite <- (sim_pv e es k v SM VI). eapply ole_trans; [|exact RL]. apply facet_of_mono. apply (C r (l2 ++ [(OGet c k r fc, Some v)])); try assumption.
  - rewrite <- app_assoc. assumption.
  - intros IN. apply LD. rewrite <- IN, <- ilog_init, E. symmetry. change ((OGet c k r fc, Some v) :: l1) with ([(OGet c k r fc, Some v)] ++ l1). rewrite app_assoc. apply ilog_app. assumption.
Qed.

Lemma hoisted : forall r, mapped r -> forall fu k e S R b1 k1, reach k e S R -> hoist fu f m (f_bb f k) k r = Some (b1, k1) ->
  ((exists v, In (k1, r, v) (l_stores L)) \/ forall e, env_ok e -> mlog e lg k1 r = None) ->
  ole (seg_regs e S R k lg r) (rbits (end_slots e S k r)).
Proof.
  intros r MR. assert (AR : In r all_regs) by (eapply mapped_all; eassumption). induction fu as [|fu IH]; intros k e S R b1 k1 X E ST; [discriminate|].
  pose proof (reach_good _ _ _ _ X) as G.
  assert (STOP : k1 = k -> ole (seg_regs e S R k lg r) (rbits (end_slots e S k r))).
  { intros ->. destruct ST as [ST|ST]; [apply ends_ok; [assumption|right; assumption]|]. destruct (end_ok k e S R G) as (es & SM & EO). specialize (EO r MR). rewrite (ST es (proj1 SM)) in EO.
    destruct (seg_regs e S R k lg r) as [z|]; [specialize (EO z eq_refl); discriminate|]. intros z Z0. discriminate. }
  cbn [hoist] in E. rewrite dirty_bit in E by assumption. destruct (starts_clean (f_h f) k || h_dirty (f_h f) k r) eqn:SD; [apply STOP; congruence|]. apply orb_false_iff in SD. destruct SD as [SC D].
  assert (IN : h_init (f_h f) k <> InitNone). { intros IN. apply clean_init in IN. congruence. }
  destruct (filter _ (f_preds f (f_bb f k))) as [|p [|q l]] eqn:FI; try (apply STOP; congruence).
  destruct (f_succs f p) as [|x [|y l]]; try (apply STOP; congruence). destruct (f_file f p) as [kp|] eqn:KP; [|discriminate].
  apply ends_ok; [assumption|]. left. unfold CfgSem.seg_regs at 1. rewrite (co_clean _ _ _ _ _ _ _ _ CO k r D IN).
  inversion X as [e0 S0 E0 SO LO|k0 e0 S0 R0 p0 k' e' S' X0 IP PK0 PN E' SO OW LO|k0 e0 S0 R0 b b' k' e' X0 K SU F1 E' OW PH LO]; subst.
  - destruct (st_0 _ B N0). contradiction.
  - destruct (st_pack _ B p0 IP) as (_ & _ & _ & NX). destruct (NX k PN) as (_ & I0 & _). contradiction.
  - destruct (st_first _ B b' k F1) as (_ & BK & _). assert (PB : In b (f_preds f b')) by (apply (st_edge _ B); assumption). rewrite BK in FI.
    destruct (Z.testbit (fl_out m b) (bit_idx r)) eqn:TB.
    + assert (b = p) as ->. { assert (Y : In b (filter (fun p => Z.testbit (fl_out m p) (bit_idx r)) (f_preds f b'))) by (apply filter_In; auto). rewrite FI in Y. destruct Y as [->|[]]. reflexivity. } assert (k0 = kp) as -> by congruence.
      eapply IH; [exact X0| |exact ST]. rewrite (proj1 (proj2 (st_file _ B p kp KP))). exact E.
    + eapply branch_mem; [apply reach_good; exact X0|exact K|assumption|assumption].
Qed.
Theorem sync_ok : forall k e S R p r, reach k e S R -> In p (f_packs f) -> pk_file p = k -> mapped r ->
  ole (seg_regs e S R k lg r) (rbits (end_slots e S k r)).
Proof.
  intros k e S R p r X IP <- MR. pose proof (reach_good _ _ _ _ X) as G. destruct (st_pack _ B p IP) as (_ & BP & _ & _).
  destruct (Z.testbit (regset f m p) (bit_idx r)) eqn:T.
  - destruct (SA p r IP MR T) as (b & k1 & HO & ST). rewrite <- BP in HO. eapply hoisted; eassumption.
  - apply ends_ok; [assumption|]. left. unfold regset in T. rewrite Z.lor_spec, dirty_bit in T by (eapply mapped_all; eassumption). apply orb_false_iff in T. destruct T as [T1 T2].
    apply nodirty_ok; try assumption. destruct (starts_clean (f_h f) (pk_file p)) eqn:SC; [left; apply clean_init; assumption|right; rewrite BP; assumption].
Qed.

(** ** All paths can be executed *)
Definition find_inc (b : nat) (l : list (nat * value)) : option value := match find (fun x => Nat.eqb (fst x) b) l with Some (_, v) => Some v | None => None end.
Definition find_phi (b : nat) (r : areg) (l : list phi) : option (list (nat * value)) :=
  match find (fun x => Nat.eqb (fst (fst x)) b && areg_eqb (snd (fst x)) r) l with Some (_, inc) => Some inc | None => None end.
(** The values after a branch from [b], resp. at the start or after a call. *)
Definition next_env (e : env) (S' : slots) (k' : nat) (ob : option nat) : env := fun a =>
  match a with
  | AVar _ _ => e a
  | APhi b' r =>
    match ob, f_first f b' with
    | Some b, Some k => if Nat.eqb k k' then
        match find_phi b' r (l_phis L) with
        | Some inc => match find_inc b inc with Some v => match vev e (v_e v) with Ok x => x | _ => e a end | None => e a end
        | None => e a
        end else e a
    | _, _ => e a
    end
  | ASlot u r t => if Nat.eqb u k' && ty_eqb t (nty r) then S' r else e a
  end.
Lemma find_phi_in : forall b r inc, NoDup (map fst (l_phis L)) -> In (b, r, inc) (l_phis L) -> find_phi b r (l_phis L) = Some inc.
Proof.
  intros b r inc. unfold find_phi. generalize (l_phis L). induction l as [|[[b0 r0] i0] l IH]; intros ND I; [destruct I|]. cbn [find fst snd]. cbn in ND. inversion ND as [|? ? NI ND']; subst.
  destruct (Nat.eqb b0 b && areg_eqb r0 r) eqn:E.
  - apply andb_true_iff in E. destruct E as [E1 E2]. apply Nat.eqb_eq in E1. apply areg_eqb_true in E2. subst. destruct I as [I|I]; [congruence|]. destruct NI. apply in_map_iff. exists (b, r, inc). auto.
  - destruct I as [I|I]; [|apply IH; assumption]. injection I as -> -> ->. rewrite keq_refl in E. discriminate.
Qed.
Lemma find_inc_in : forall b l, In b (map fst l) -> exists v, find_inc b l = Some v /\ In (b, v) l.
Proof.
  intros b. unfold find_inc. induction l as [|[b0 v0] l IH]; intros I; [destruct I|]. cbn [find fst]. destruct (Nat.eqb_spec b0 b) as [->|Q0]; [exists v0; split; [reflexivity|left; reflexivity]|].
  destruct I as [I|I]; [contradiction|]. destruct (IH I) as (v & V1 & V2). exists v. split; [assumption|right; assumption].
Qed.
Lemma next_env_loads : forall e S' k' ob, loads_ok A L k' (next_env e S' k' ob) S'.
Proof.
  intros e S' k' ob r I. assert (E : next_env e S' k' ob (ASlot k' r (nty r)) = S' r) by (cbn; rewrite Nat.eqb_refl, ty_eqb_refl; reflexivity).
  split; [auto|]. intros _. exists [], (seg_stores k'). split; [reflexivity|assumption].
Qed.
Lemma next_env_own : forall e S' k' ob a, owner own L a <> Some k' -> next_env e S' k' ob a = e a.
Proof.
  intros e S' k' ob [n t|b r|u r t] O; cbn [owner next_env] in *; [reflexivity| |].
  - destruct ob as [b0|]; [|reflexivity]. destruct (f_first f b) as [k|]; [|reflexivity]. destruct (Nat.eqb_spec k k'); [congruence|reflexivity].
  - destruct (Nat.eqb_spec u k'); [congruence|reflexivity].
Qed.
Lemma next_env_slot : forall e S' k' ob, env_ok e -> slots_ok A S' -> (forall b r, ty_of (next_env e S' k' ob (APhi b r)) = nty r /\ wf_rv (next_env e S' k' ob (APhi b r))) -> env_ok (next_env e S' k' ob).
Proof.
  intros e S' k' ob E SO P [n t|b r|u r t]; [apply E|apply P|]. cbn [next_env aty]. destruct (Nat.eqb u k' && ty_eqb t (nty r)) eqn:X; [|apply E].
  apply andb_true_iff in X. destruct X as [_ X]. apply ty_eqb_eq in X. subst t. apply SO.
Qed.
Theorem entry_progress : forall S, slots_ok A S -> forall e, env_ok e -> exists e', reach 0 e' S (fun r => rbits (S r)).
Proof.
  intros S SO e E. exists (next_env e S 0 None). apply re_entry; [|assumption|apply next_env_loads]. apply next_env_slot; try assumption. intros b r. apply (E (APhi b r)).
Qed.
Theorem call_progress : forall k e S R p k' S', reach k e S R -> In p (f_packs f) -> pk_file p = k -> pk_next p = Some k' -> slots_ok A S' ->
  exists e', reach k' e' S' (fun r => rbits (S' r)).
Proof.
  intros k e S R p k' S' X IP PK0 PN SO. exists (next_env e S' k' None). pose proof (gd_env _ _ _ _ (reach_good _ _ _ _ X)) as E.
  eapply re_call; try eassumption; [|intros a; apply next_env_own|apply next_env_loads]. apply next_env_slot; try assumption. intros b r. apply (E (APhi b r)).
Qed.
Lemma branch_env : NoDup (map fst (l_phis L)) -> forall k e S R b b' k', reach k e S R -> f_file f b = Some k -> In b' (f_succs f b) -> f_first f b' = Some k' ->
  env_ok (next_env e (end_slots e S k) k' (Some b)) /\
  (forall r inc, In (b', r, inc) (l_phis L) -> exists v, In (b, v) inc /\ vev e (v_e v) = Ok (next_env e (end_slots e S k) k' (Some b) (APhi b' r))) /\
  slots_ok A (end_slots e S k).
Proof.
  intros ND k e S R b b' k' X K SU F1. pose proof (reach_good _ _ _ _ X) as G. pose proof (gd_env _ _ _ _ G) as E.
  assert (PB : In b (f_preds f b')) by (apply (st_edge _ B); assumption).
  assert (VAL : forall r inc, In (b', r, inc) (l_phis L) -> exists v x, find_inc b inc = Some v /\ In (b, v) inc /\ vev e (v_e v) = Ok x /\ ty_of x = nty r /\ wf_rv x).
  { intros r inc I. destruct (PO b' r inc I) as [PM IC]. rewrite <- PM in PB. destruct (find_inc_in b inc PB) as (v & V1 & V2). destruct (IC b v V2) as (k0 & K0 & RD). destruct RD as (_ & T1 & T2 & _).
    destruct (T2 e E) as (x & X1 & X2 & X3). exists v, x. rewrite <- T1. auto. }
  split; [|split; [|eapply ends_slots; eassumption]].
  - apply next_env_slot; [assumption|eapply ends_slots; eassumption|]. intros b0 r. cbn [next_env]. destruct (f_first f b0) as [k0|] eqn:F0; [|apply (E (APhi b0 r))].
    destruct (Nat.eqb_spec k0 k') as [->|]; [|apply (E (APhi b0 r))]. assert (b0 = b') as ->. { pose proof (st_first _ B _ _ F0) as Y1. pose proof (st_first _ B _ _ F1) as Y2. destruct Y1 as (_ & Y1 & _), Y2 as (_ & Y2 & _). congruence. }
    destruct (find_phi b' r (l_phis L)) as [inc|] eqn:FP; [|apply (E (APhi b' r))].
    assert (I : In (b', r, inc) (l_phis L)). { unfold find_phi in FP. match type of FP with context [find ?g ?l] => destruct (find g l) as [[[b1 r1] i1]|] eqn:FF end; [|discriminate]. injection FP as ->. apply find_some in FF. destruct FF as [FF1 FF2].
      cbn [fst snd] in FF2. apply andb_true_iff in FF2. destruct FF2 as [X1 X2]. apply Nat.eqb_eq in X1. apply areg_eqb_true in X2. subst. assumption. }
    destruct (VAL r inc I) as (v & x & -> & _ & -> & T). exact T.
  - intros r inc I. destruct (VAL r inc I) as (v & x & V1 & V2 & V3 & _). exists v. split; [assumption|]. cbn [next_env]. rewrite F1, Nat.eqb_refl, (find_phi_in b' r inc ND I), V1, V3. reflexivity.
Qed.
Theorem branch_progress : NoDup (map fst (l_phis L)) -> forall k e S R b b' k', reach k e S R -> f_file f b = Some k -> In b' (f_succs f b) -> f_first f b' = Some k' ->
  exists e', reach k' e' (end_slots e S k) (seg_regs e S R k lg).
Proof.
  intros ND k e S R b b' k' X K SU F1. exists (next_env e (end_slots e S k) k' (Some b)). destruct (branch_env ND _ _ _ _ _ _ _ X K SU F1) as (E & P & _).
  eapply re_branch; try eassumption; [intros a; apply next_env_own|apply next_env_loads].
Qed.
End SemOk.
