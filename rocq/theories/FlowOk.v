(** The data flow analysis of the CPU struct stores (callconv.cc:262-304)
    terminates, and finds exactly the registers that may have been written since
    the function's start or the last call on some path. *)

From Coq Require Import ZArith Lia ZifyBool List Bool.
From Verif Require Import Bits IR Facet Dsl RegFile RegFileOk RegScript Layout Cfg CfgHeap CfgLog CfgBuild.
Import ListNotations.
Open Scope Z_scope.

(** ** Specification *)
(** Blocks reachable from the entry. *)
Inductive freach (f : fn) : nat -> Prop :=
| fr_0 : freach f 0%nat
| fr_s : forall b s, freach f b -> In s (f_succs f b) -> freach f s.
(** Bit [i] (of a register) may be dirty at the end of a block: its last register
    file wrote it, or does not start from the CPU struct and it may be dirty at the
    end of a predecessor. *)
Inductive mdo (f : fn) (i : Z) : nat -> Prop :=
| mdo_here : forall b k, freach f b -> f_file f b = Some k -> Z.testbit (dirty_mask (f_h f) k) i = true -> mdo f i b
| mdo_thru : forall b k p, freach f b -> f_file f b = Some k -> starts_clean (f_h f) k = false -> In p (f_preds f b) -> mdo f i p -> mdo f i b.

(** ** Bits *)
Lemma all_regs_idx : forall r, In r all_regs -> 1 <= bit_idx r < 72.
Proof.
  assert (X : forallb (fun r => (1 <=? bit_idx r) && (bit_idx r <? 72)) all_regs = true) by (vm_compute; reflexivity).
  intros r I. rewrite forallb_forall in X. specialize (X r I). lia.
Qed.
Lemma dirty_mask_bit : forall h k i, Z.testbit (dirty_mask h k) i = existsb (fun r => h_dirty h k r && (bit_idx r =? i)) all_regs.
Proof.
  intros h k i. unfold dirty_mask. pose proof all_regs_idx as X. revert X. generalize all_regs. induction l as [|r l IH]; intros X; cbn [fold_right existsb]; [apply Z.bits_0|].
  specialize (IH (fun r' I => X r' (or_intror I))). specialize (X r (or_introl eq_refl)).
  destruct (h_dirty h k r); cbn [andb]; [|exact IH]. rewrite <- IH. rewrite Z.setbit_eqb by lia. reflexivity.
Qed.
Lemma areg_eqb_true : forall r r', areg_eqb r r' = true -> r = r'.
Proof. intros [i|i|i] [j|j|j]; cbn; try discriminate; intros E; apply Z.eqb_eq in E; congruence. Qed.
Lemma bit_idx_inj : forall r r', In r all_regs -> In r' all_regs -> bit_idx r = bit_idx r' -> r = r'.
Proof.
  assert (X : forallb (fun r => forallb (fun r' => negb (bit_idx r =? bit_idx r') || areg_eqb r r') all_regs) all_regs = true) by (vm_compute; reflexivity).
  intros r r' I I' E. rewrite forallb_forall in X. specialize (X r I). rewrite forallb_forall in X. specialize (X r' I').
  rewrite E, Z.eqb_refl in X. cbn in X. apply areg_eqb_true. assumption.
Qed.
Lemma dirty_bit : forall h k r, In r all_regs -> Z.testbit (dirty_mask h k) (bit_idx r) = h_dirty h k r.
Proof.
  intros h k r I. rewrite dirty_mask_bit. apply Bool.eq_true_iff_eq. rewrite existsb_exists. split.
  - intros (r' & I' & X). apply andb_true_iff in X. destruct X as [X Y]. apply Z.eqb_eq in Y. rewrite (bit_idx_inj r r' I I') by congruence. assumption.
  - intros X. exists r. rewrite X, Z.eqb_refl. auto.
Qed.
Lemma mapped_all : forall A r, mapped A r -> In r all_regs.
Proof.
  intros A r M. assert (X : forallb (fun r => existsb (areg_eqb r) all_regs) (map fst (reg_slots A)) = true) by (destruct A; vm_compute; reflexivity).
  rewrite forallb_forall in X. specialize (X r M). rewrite existsb_exists in X. destruct X as (r' & I & Q). rewrite (areg_eqb_true _ _ Q). assumption.
Qed.

Section Flow.
Variable f : fn.
Hypothesis ED : forall b t, In t (f_succs f b) <-> In b (f_preds f t).
Hypothesis RG : forall b t, In t (f_succs f b) -> (t < f_nb f)%nat.
Hypothesis NB : (0 < f_nb f)%nat.
Local Notation freach := (freach f).
Local Notation mdo := (mdo f).

Lemma freach_lt : forall b, freach b -> (b < f_nb f)%nat.
Proof. intros b X. destruct X; [assumption|]. eapply RG; eassumption. Qed.

Lemma pre_bit : forall m b i, Z.testbit (flow_pre f m b) i = existsb (fun p => Z.testbit (fl_out m p) i) (f_preds f b).
Proof.
  intros m b i. unfold flow_pre. transitivity (Z.testbit 0 i || existsb (fun p => Z.testbit (fl_out m p) i) (f_preds f b)); [|rewrite Z.bits_0; reflexivity].
  generalize 0 as x. induction (f_preds f b) as [|p l IH]; intros x; cbn [fold_left existsb]; [rewrite orb_false_r; reflexivity|].
  rewrite IH, Z.lor_spec. rewrite orb_assoc. reflexivity.
Qed.
Lemma post_bit : forall x b i, Z.testbit (flow_post f x b) i =
  match f_file f b with Some k => Z.testbit (dirty_mask (f_h f) k) i || (negb (starts_clean (f_h f) k) && Z.testbit x i) | None => false end.
Proof.
  intros x b i. unfold flow_post. destruct (f_file f b) as [k|]; [|apply Z.bits_0]. destruct (starts_clean (f_h f) k); cbn [negb andb].
  - rewrite orb_false_r. reflexivity.
  - rewrite Z.lor_spec. apply orb_comm.
Qed.
Lemma pre_ext : forall m m' b, (forall p, In p (f_preds f b) -> fl_out m p = fl_out m' p) -> flow_pre f m b = flow_pre f m' b.
Proof.
  intros m m' b E. unfold flow_pre. revert E. generalize 0. induction (f_preds f b) as [|p l IH]; intros x E; cbn [fold_left]; [reflexivity|].
  rewrite (E p (or_introl eq_refl)). apply IH. intros q I. apply E. right. assumption.
Qed.

Lemma memn_in : forall x l, memn x l = true <-> In x l.
Proof.
  intros x l. unfold memn. rewrite existsb_exists. split.
  - intros (y & I & E). apply Nat.eqb_eq in E. congruence.
  - intros I. exists x. rewrite Nat.eqb_refl. auto.
Qed.
Lemma enqueue_new : forall q l new s, In s new -> In s (enqueue q new l).
Proof.
  unfold enqueue. intros q. induction l as [|t l IH]; intros new s I; cbn [fold_left]; [assumption|]. apply IH. destruct (_ || _); [assumption|]. apply in_or_app. auto.
Qed.
Lemma enqueue_in : forall q l new s, In s l -> In s q \/ In s (enqueue q new l).
Proof.
  intros q. induction l as [|t l IH]; intros new s I; [destruct I|]. destruct I as [->|I].
  - unfold enqueue. cbn [fold_left]. destruct (memn s q) eqn:M; [left; apply memn_in; assumption|]. right. cbn [orb]. apply (enqueue_new q l).
    destruct (memn s new) eqn:N; [apply memn_in; assumption|]. apply in_or_app. right. left. reflexivity.
  - unfold enqueue. cbn [fold_left]. apply IH. assumption.
Qed.
Lemma enqueue_inv : forall q l new s, In s (enqueue q new l) -> In s new \/ In s l.
Proof.
  unfold enqueue. intros q. induction l as [|t l IH]; intros new s I; cbn [fold_left] in I; [auto|]. apply IH in I. destruct I as [I|I]; [|right; right; assumption].
  destruct (_ || _); [auto|]. apply in_app_or in I. destruct I as [I|[<-|[]]]; [auto|]. right. left. reflexivity.
Qed.

Record qinv (cur new : list nat) (m : flowmap) : Prop := {
  q_q : forall b, In b cur \/ In b new -> freach b;
  q_r : forall b, m b <> None -> freach b;
  q_sound : forall b i, Z.testbit (fl_out m b) i = true -> mdo i b;
  q_in : forall b i, Z.testbit (fl_in m b) i = true -> freach b /\ exists p, In p (f_preds f b) /\ mdo i p;
  q_post : forall b x y, m b = Some (x, y) -> y = flow_post f x b;
  q_pre : forall b x y, m b = Some (x, y) -> In b cur \/ In b new \/ x = flow_pre f m b;
  q_mono : forall b x y i, m b = Some (x, y) -> Z.testbit x i = true -> Z.testbit (flow_pre f m b) i = true;
  q_succ : forall b s, m b <> None -> In s (f_succs f b) -> m s <> None \/ In s cur \/ In s new;
  q_0 : m 0%nat <> None \/ In 0%nat cur \/ In 0%nat new;
}.
Lemma qinv0 : qinv [0%nat] [] (fun _ => None).
Proof.
  split; try discriminate; try contradiction.
  - intros b [[<-|[]]|[]]. constructor.
  - intros b i. cbn. rewrite Z.bits_0. discriminate.
  - intros b i. cbn. rewrite Z.bits_0. discriminate.
  - right. left. left. reflexivity.
Qed.
Lemma qinv_swap : forall new m, qinv [] new m -> qinv new [] m.
Proof.
  intros new m Q. split; try apply Q.
  - intros b [I|[]]. apply (q_q _ _ _ Q). auto.
  - intros b x y E. destruct (q_pre _ _ _ Q b x y E) as [[]|[X|X]]; auto.
  - intros b s M I. destruct (q_succ _ _ _ Q b s M I) as [X|[[]|X]]; auto.
  - destruct (q_0 _ _ _ Q) as [X|[[]|X]]; auto.
Qed.

Definition changed (m : flowmap) (b : nat) (post : Z) : bool := match m b with None => true | Some (_, x) => negb (x =? post) end.
Lemma fl_out_upd : forall m b x y p, fl_out (updn m b (Some (x, y))) p = if Nat.eqb b p then y else fl_out m p.
Proof. intros. unfold fl_out, updn. destruct (Nat.eqb b p); reflexivity. Qed.
Lemma fl_in_upd : forall m b x y p, fl_in (updn m b (Some (x, y))) p = if Nat.eqb b p then x else fl_in m p.
Proof. intros. unfold fl_in, updn. destruct (Nat.eqb b p); reflexivity. Qed.
Lemma unchanged_out : forall m b x y, changed m b y = false -> forall p, fl_out (updn m b (Some (x, y))) p = fl_out m p.
Proof.
  intros m b x y C p. rewrite fl_out_upd. destruct (Nat.eqb_spec b p); [subst p|reflexivity]. unfold changed in C. unfold fl_out. destruct (m b) as [[x0 y0]|]; [|discriminate].
  apply negb_false_iff, Z.eqb_eq in C. congruence.
Qed.
Lemma post_mono : forall x x' b i, (Z.testbit x i = true -> Z.testbit x' i = true) -> Z.testbit (flow_post f x b) i = true -> Z.testbit (flow_post f x' b) i = true.
Proof.
  intros x x' b i L. rewrite !post_bit. destruct (f_file f b); [|auto]. intros X. apply orb_true_iff in X. apply orb_true_iff. destruct X as [X|X]; [auto|].
  apply andb_true_iff in X. destruct X as [X Y]. rewrite X, (L Y). auto.
Qed.

Section Step.
Variables (cur new : list nat) (m : flowmap) (b : nat).
Hypothesis Q : qinv (b :: cur) new m.
Let pre := flow_pre f m b.
Let post := flow_post f pre b.
Let m' := updn m b (Some (pre, post)).
Let new' := if changed m b post then enqueue cur new (f_succs f b) else new.

Lemma step_grow : forall p i, Z.testbit (fl_out m p) i = true -> Z.testbit (fl_out m' p) i = true.
Proof.
  intros p i X. unfold m'. rewrite fl_out_upd. destruct (Nat.eqb_spec b p); [subst p|assumption]. unfold fl_out in X. destruct (m b) as [[x y]|] eqn:M; [|rewrite Z.bits_0 in X; discriminate].
  rewrite (q_post _ _ _ Q b x y M) in X. revert X. apply post_mono. apply (q_mono _ _ _ Q b x y i M).
Qed.
Lemma step_pre_grow : forall b' i, Z.testbit (flow_pre f m b') i = true -> Z.testbit (flow_pre f m' b') i = true.
Proof. intros b' i. rewrite !pre_bit, !existsb_exists. intros (p & I & X). exists p. split; [assumption|]. apply step_grow. assumption. Qed.
Lemma step_fr : freach b. Proof. apply (q_q _ _ _ Q). left. left. reflexivity. Qed.
Lemma step_in : forall i, Z.testbit pre i = true -> exists p, In p (f_preds f b) /\ mdo i p.
Proof. intros i. unfold pre. rewrite pre_bit, existsb_exists. intros (p & I & X). exists p. split; [assumption|]. apply (q_sound _ _ _ Q). assumption. Qed.
Lemma step_out : forall i, Z.testbit post i = true -> mdo i b.
Proof.
  intros i. unfold post. rewrite post_bit. destruct (f_file f b) as [k|] eqn:K; [|discriminate]. intros X. apply orb_true_iff in X. destruct X as [X|X].
  - eapply mdo_here; [apply step_fr|eassumption|assumption].
  - apply andb_true_iff in X. destruct X as [X Y]. destruct (step_in i Y) as (p & I & Z0). eapply mdo_thru; [apply step_fr|eassumption| |eassumption|assumption].
    apply negb_true_iff. assumption.
Qed.
Lemma new_new' : forall s, In s new -> In s new'. Proof. intros s I. unfold new'. destruct (changed m b post); [apply enqueue_new|]; assumption. Qed.

Lemma qinv_step : qinv cur new' m'.
Proof.
  split.
  - intros b' [I|I]; [apply (q_q _ _ _ Q); left; right; assumption|]. unfold new' in I. destruct (changed m b post).
    + apply enqueue_inv in I. destruct I as [I|I]; [apply (q_q _ _ _ Q); auto|]. eapply fr_s; [apply step_fr|assumption].
    + apply (q_q _ _ _ Q). auto.
  - intros b'. unfold m', updn. destruct (Nat.eqb_spec b b'); [subst b'; intros _; apply step_fr|apply (q_r _ _ _ Q)].
  - intros b' i. unfold m'. rewrite fl_out_upd. destruct (Nat.eqb_spec b b'); [subst b'; apply step_out|apply (q_sound _ _ _ Q)].
  - intros b' i. unfold m'. rewrite fl_in_upd. destruct (Nat.eqb_spec b b'); [subst b'; intros X; split; [apply step_fr|apply step_in; assumption]|apply (q_in _ _ _ Q)].
  - intros b' x y. unfold m', updn. destruct (Nat.eqb_spec b b'); [subst b'; intros E; injection E as <- <-; reflexivity|apply (q_post _ _ _ Q)].
  - intros b' x y E.
    assert (X : b' = b \/ In b' cur \/ In b' new \/ x = flow_pre f m b').
    { destruct (Nat.eq_dec b' b) as [->|N]; [auto|]. unfold m' in E. rewrite updn_ne in E by assumption. destruct (q_pre _ _ _ Q b' x y E) as [[X|X]|[X|X]]; auto. }
    assert (Y : In b' cur \/ In b' new' \/ x = flow_pre f m b').
    { destruct X as [->|[X|[X|X]]]; auto using new_new'. right. right. unfold m' in E. rewrite updn_eq in E. injection E as <- <-. reflexivity. }
    destruct Y as [Y|[Y|Y]]; auto. destruct (changed m b post) eqn:C.
    + destruct (in_dec Nat.eq_dec b (f_preds f b')) as [I|I].
      * apply ED in I. destruct (enqueue_in cur (f_succs f b) new b' I) as [Z0|Z0]; [auto|]. right. left. exact Z0.
      * right. right. rewrite Y. apply pre_ext. intros p IP. unfold m'. rewrite fl_out_upd. destruct (Nat.eqb_spec b p); [congruence|reflexivity].
    + right. right. rewrite Y. apply pre_ext. intros p IP. symmetry. apply unchanged_out. assumption.
  - intros b' x y i E X. apply step_pre_grow. unfold m' in E. destruct (Nat.eq_dec b' b) as [->|N].
    + rewrite updn_eq in E. injection E as <- <-. assumption.
    + rewrite updn_ne in E by assumption. eapply (q_mono _ _ _ Q); eassumption.
  - intros b' s M I. destruct (Nat.eq_dec s b) as [->|NS]; [left; unfold m'; rewrite updn_eq; discriminate|].
    unfold m'. rewrite (updn_ne _ m b _ s) by assumption.
    destruct (m b') eqn:MB.
    + destruct (q_succ _ _ _ Q b' s ltac:(congruence) I) as [X|[[X|X]|X]]; auto using new_new'; congruence.
    + unfold m' in M. destruct (Nat.eq_dec b' b) as [->|N]; [|rewrite updn_ne in M by assumption; contradiction].
      destruct (enqueue_in cur (f_succs f b) new s I) as [X|X]; [auto|]. right. right. unfold new', changed. rewrite MB. assumption.
  - destruct (Nat.eq_dec 0 b) as [<-|N]; [left; unfold m'; rewrite updn_eq; discriminate|]. unfold m'. rewrite updn_ne by assumption.
    destruct (q_0 _ _ _ Q) as [X|[[X|X]|X]]; auto using new_new'; congruence.
Qed.
End Step.

Lemma flow_qinv : forall fuel cur new m m', qinv cur new m -> flow fuel f cur new m = Some m' -> qinv [] [] m'.
Proof.
  induction fuel as [|fuel IH]; intros cur new m m' Q E; [discriminate|]. cbn [flow] in E. destruct cur as [|b q].
  - destruct new as [|b new]; [injection E as <-; assumption|]. eapply IH; [|exact E]. apply qinv_swap. assumption.
  - eapply IH; [|exact E]. apply (qinv_step q new m b Q).
Qed.

(** ** The result *)
Lemma done_reach : forall m, qinv [] [] m -> forall b, m b <> None <-> freach b.
Proof.
  intros m Q b. split; [apply (q_r _ _ _ Q)|]. intros X. induction X as [|b s X IH I].
  - destruct (q_0 _ _ _ Q) as [Y|[[]|[]]]; assumption.
  - destruct (q_succ _ _ _ Q b s IH I) as [Y|[[]|[]]]; assumption.
Qed.
Lemma done_pre : forall m, qinv [] [] m -> forall b, freach b -> fl_in m b = flow_pre f m b /\ fl_out m b = flow_post f (fl_in m b) b.
Proof.
  intros m Q b X. apply (done_reach m Q) in X. unfold fl_in at 1 2, fl_out at 1. destruct (m b) as [[x y]|] eqn:M; [|contradiction]. split.
  - destruct (q_pre _ _ _ Q b x y M) as [[]|[[]|Y]]; assumption.
  - eapply (q_post _ _ _ Q); eassumption.
Qed.
Theorem flow_out_bit : forall m, qinv [] [] m -> forall b i, Z.testbit (fl_out m b) i = true <-> mdo i b.
Proof.
  intros m Q b i. split; [apply (q_sound _ _ _ Q)|]. intros X. induction X as [b k X K D|b k p X K SC I MD IH]; destruct (done_pre m Q b X) as [E1 E2]; rewrite E2, post_bit, K.
  - rewrite D. reflexivity.
  - rewrite SC. cbn [negb andb]. apply orb_true_iff. right. rewrite E1, pre_bit, existsb_exists. exists p. auto.
Qed.
Theorem flow_in_bit : forall m, qinv [] [] m -> forall b i, Z.testbit (fl_in m b) i = true <-> freach b /\ exists p, In p (f_preds f b) /\ mdo i p.
Proof.
  intros m Q b i. split; [apply (q_in _ _ _ Q)|]. intros (X & p & I & M). destruct (done_pre m Q b X) as [E1 _]. rewrite E1, pre_bit, existsb_exists. exists p. split; [assumption|].
  apply (flow_out_bit m Q). assumption.
Qed.

(** ** Termination *)
Lemma mdo_rng : forall i b, mdo i b -> 0 <= i < 72.
Proof.
  intros i b X. induction X as [b k X K D|]; [|assumption]. rewrite dirty_mask_bit, existsb_exists in D. destruct D as (r & I & D). apply andb_true_iff in D. pose proof (all_regs_idx r I). lia.
Qed.
Definition fuse := list_prod (seq 0 (f_nb f)) (seq 0 73).
Definition fset (m : flowmap) (u : nat * nat) : bool :=
  match snd u with O => match m (fst u) with None => false | _ => true end | S j => Z.testbit (fl_out m (fst u)) (Z.of_nat j) end.
Definition deficit (m : flowmap) : nat := length (filter (fun u => negb (fset m u)) fuse).
Lemma filter_lt : forall T (p q : T -> bool) l x, (forall y, q y = true -> p y = true) -> In x l -> p x = true -> q x = false ->
  (length (filter q l) < length (filter p l))%nat.
Proof.
  intros T p q l x QP I PX QX.
  assert (LE : forall l, (length (filter q l) <= length (filter p l))%nat).
  { induction l0 as [|y l0 IH]; cbn [filter]; [lia|]. destruct (q y) eqn:Y; [rewrite (QP y Y); cbn; lia|]. destruct (p y); cbn; lia. }
  induction l as [|y l IH]; [destruct I|]. cbn [filter]. destruct I as [->|I].
  - rewrite PX, QX. cbn. specialize (LE l). lia.
  - specialize (IH I). destruct (q y) eqn:Y; [rewrite (QP y Y); cbn; lia|]. destruct (p y); cbn; lia.
Qed.
Lemma deficit_step : forall cur new m b, qinv (b :: cur) new m -> let pre := flow_pre f m b in let post := flow_post f pre b in changed m b post = true ->
  (deficit (updn m b (Some (pre, post))) < deficit m)%nat.
Proof.
  intros cur new m b Q pre post C. set (m' := updn m b (Some (pre, post))). pose proof (step_grow cur new m b Q) as GR. cbv zeta in GR. fold pre post m' in GR.
  pose proof (step_out cur new m b Q) as SO. fold pre post in SO. pose proof (freach_lt b (step_fr cur new m b Q)) as LB.
  assert (MO : forall u, fset m u = true -> fset m' u = true).
  { intros [b' [|j]]; unfold fset; cbn [fst snd]; [|apply GR]. unfold m', updn. destruct (Nat.eqb b b'); auto. }
  assert (W : exists u, In u fuse /\ fset m u = false /\ fset m' u = true).
  { unfold changed in C. destruct (m b) as [[x y]|] eqn:M.
    - apply negb_true_iff, Z.eqb_neq in C.
      assert (D : exists i, 0 <= i < 72 /\ Z.testbit y i = false /\ Z.testbit post i = true).
      { assert (EX : existsb (fun j => negb (Z.testbit y (Z.of_nat j)) && Z.testbit post (Z.of_nat j)) (seq 0 72) = true).
        { apply not_false_is_true. intros EX. apply C. apply Z.bits_inj'. intros i Li. apply Bool.eq_true_iff_eq. split.
          - intros Y. specialize (GR b i). unfold fl_out at 1 in GR. rewrite M in GR. specialize (GR Y). unfold m' in GR. rewrite fl_out_upd, Nat.eqb_refl in GR. assumption.
          - intros Y. destruct (mdo_rng i b (SO i Y)) as [L1 L2]. destruct (Z.testbit y i) eqn:YI; [reflexivity|].
            assert (X : existsb (fun j => negb (Z.testbit y (Z.of_nat j)) && Z.testbit post (Z.of_nat j)) (seq 0 72) = true).
            { rewrite existsb_exists. exists (Z.to_nat i). rewrite in_seq, Z2Nat.id by lia. rewrite YI, Y. split; [lia|reflexivity]. }
            congruence. }
        rewrite existsb_exists in EX. destruct EX as (j & I & X). apply in_seq in I. apply andb_true_iff in X. destruct X as [X Y]. apply negb_true_iff in X.
        exists (Z.of_nat j). split; [lia|]. auto. }
      destruct D as (i & Li & D1 & D2). exists (b, S (Z.to_nat i)). unfold fset, fuse. cbn [fst snd]. rewrite Z2Nat.id by lia. split; [|split].
      + apply in_prod; rewrite in_seq; lia.
      + unfold fl_out. rewrite M. assumption.
      + unfold m'. rewrite fl_out_upd, Nat.eqb_refl. assumption.
    - exists (b, O). unfold fset, fuse. cbn [fst snd]. rewrite M. unfold m'. rewrite updn_eq. split; [|auto]. apply in_prod; rewrite in_seq; lia. }
  destruct W as (u & I & W1 & W2). unfold deficit. apply (filter_lt _ _ _ _ u).
  - intros v X. apply negb_true_iff in X. apply negb_true_iff. destruct (fset m v) eqn:V; [rewrite (MO v V) in X; discriminate|reflexivity].
  - assumption.
  - rewrite W1. reflexivity.
  - rewrite W2. reflexivity.
Qed.
Lemma flow_total0 : forall d w cur new m, qinv cur new m -> (deficit m <= d)%nat -> (2 * length cur + 3 * length new <= w)%nat ->
  exists F, forall fuel, (F <= fuel)%nat -> flow fuel f cur new m <> None.
Proof.
  induction d as [d IHd] using lt_wf_ind. induction w as [w IHw] using lt_wf_ind. intros cur new m Q LD LW. destruct cur as [|b q].
  - destruct new as [|b new].
    + exists 1%nat. intros fuel L. destruct fuel; [lia|]. discriminate.
    + destruct (IHw (2 * length (b :: new))%nat) with (cur := b :: new) (new := @nil nat) (m := m) as (F & HF); [cbn [length] in *; lia|apply qinv_swap; assumption|assumption|cbn [length]; lia|].
      exists (S F). intros fuel L. destruct fuel; [lia|]. cbn [flow]. apply HF. lia.
  - pose proof (qinv_step q new m b Q) as Q'. cbv zeta in Q'. pose proof (deficit_step q new m b Q) as D. cbv zeta in D.
    set (m' := updn m b (Some (flow_pre f m b, flow_post f (flow_pre f m b) b))) in *.
    destruct (changed m b (flow_post f (flow_pre f m b) b)) eqn:C.
    + specialize (D eq_refl). destruct (IHd (deficit m') ltac:(lia) _ q _ m' Q' ltac:(lia) (Nat.le_refl _)) as (F & HF).
      exists (S F). intros fuel L. destruct fuel; [lia|]. cbn [flow]. fold (changed m b (flow_post f (flow_pre f m b) b)). rewrite C. apply HF. lia.
    + assert (DE : (deficit m' <= d)%nat).
      { apply Nat.le_trans with (deficit m); [|assumption]. unfold deficit.
        assert (X : forall u, fset m' u = fset m u).
        { intros [b' [|j]]; unfold fset; cbn [fst snd]; [|unfold m'; rewrite unchanged_out by assumption; reflexivity].
          unfold m', updn. destruct (Nat.eqb_spec b b'); [subst b'|reflexivity]. unfold changed in C. destruct (m b); [reflexivity|discriminate]. }
        rewrite (filter_ext _ (fun u => negb (fset m u))); [lia|]. intros u. rewrite X. reflexivity. }
      destruct (IHw (2 * length q + 3 * length new)%nat ltac:(cbn [length] in LW; lia) q new m' Q' DE (Nat.le_refl _)) as (F & HF).
      exists (S F). intros fuel L. destruct fuel; [lia|]. cbn [flow]. fold (changed m b (flow_post f (flow_pre f m b) b)). rewrite C. apply HF. lia.
Qed.
Theorem flow_total : exists F, forall fuel, (F <= fuel)%nat -> exists m, flow fuel f [0%nat] [] (fun _ => None) = Some m /\ qinv [] [] m.
Proof.
  destruct (flow_total0 _ _ [0%nat] [] (fun _ => None) qinv0 (Nat.le_refl _) (Nat.le_refl _)) as (F & HF). exists F. intros fuel L. specialize (HF fuel L).
  destruct (flow fuel f [0%nat] [] (fun _ => None)) as [m|] eqn:E; [|contradiction]. exists m. split; [reflexivity|]. eapply flow_qinv; [apply qinv0|exact E].
Qed.
End Flow.
