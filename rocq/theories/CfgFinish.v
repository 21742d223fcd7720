(** The stores and PHI nodes of a finished function. *)

From Coq Require Import ZArith Lia ZifyBool List Bool.
From Verif Require Import Bits IR Facet Dsl RegFile RegFileOk RegScript Layout Cfg CfgHeap CfgLog CfgBuild FlowOk.
Import ListNotations.
Open Scope Z_scope.

Section Finish.
Context `{FpuOps}.
Variable A : arch.
Variable own : nat -> nat.
Notation kd := (kd A).
Notation env_ok := (env_ok A).
Notation mlog := (mlog A).
Notation mapped := (mapped A).
Notation BI := (BI A own).
Notation rext := rext.
Notation rdok := (rdok A own).
Variable is_undef : value -> bool.

(** ** Placement of stores *)
Definition regset (f : fn) (m : flowmap) (p : pack) : Z :=
  Z.lor (dirty_mask (f_h f) (pk_file p)) (if starts_clean (f_h f) (pk_file p) then 0 else fl_in m (pk_bb p)).
Lemma dirty_mask_ext : forall h h' k, h_dirty h' = h_dirty h -> dirty_mask h' k = dirty_mask h k.
Proof. intros h h' k E. unfold dirty_mask. rewrite E. reflexivity. Qed.
Lemma starts_clean_ext : forall h h' k, h_init h' = h_init h -> starts_clean h' k = starts_clean h k.
Proof. intros h h' k E. unfold starts_clean. rewrite E. reflexivity. Qed.
Lemma hoist_ext : forall P f f' m, rext P f f' -> forall fuel b k r, hoist fuel f' m b k r = hoist fuel f m b k r.
Proof.
  intros P f f' m X. destruct (rx_shape _ _ _ X) as (_ & _ & _ & E4 & E5 & E6 & _ & _ & _ & E10). pose proof (rx_dirty _ _ _ X) as ED.
  induction fuel as [|fuel IH]; intros b k r; [reflexivity|]. cbn [hoist]. rewrite (starts_clean_ext _ _ _ E10), (dirty_mask_ext _ _ _ ED), E5.
  destruct (_ || _); [reflexivity|]. destruct (filter _ _) as [|p [|q l]]; try reflexivity. rewrite E6, E4. destruct (f_succs f p) as [|x [|y l]]; try reflexivity.
  destruct (f_file f p); [apply IH|reflexivity].
Qed.
Lemma regset_ext : forall P f f' m p, rext P f f' -> regset f' m p = regset f m p.
Proof.
  intros P f f' m p X. destruct (rx_shape _ _ _ X) as (_ & _ & _ & E4 & E5 & E6 & _ & _ & _ & E10). pose proof (rx_dirty _ _ _ X) as ED.
  unfold regset. rewrite (starts_clean_ext _ _ _ E10), (dirty_mask_ext _ _ _ ED). reflexivity.
Qed.

Lemma filter_one : forall T (p : T -> bool) l x, In x l -> p x = true -> forall y, filter p l = [y] -> x = y.
Proof. intros T p l x I P y E. assert (X : In x (filter p l)) by (apply filter_In; auto). rewrite E in X. destruct X as [->|[]]. reflexivity. Qed.

Section Hoist.
Variables (f : fn) (m : flowmap).
Hypothesis B : BS f.
Hypothesis Q : qinv f [] [] m.

Lemma mdo_file : forall i b, mdo f i b -> exists k, f_file f b = Some k.
Proof. intros i b X. destruct X as [b k _ K _|b k p _ K _ _ _]; exists k; assumption. Qed.
Lemma hoist_total0 : forall r b, mdo f (bit_idx r) b -> forall k, f_file f b = Some k -> exists F, forall fuel, (F <= fuel)%nat -> hoist fuel f m b k r <> None.
Proof.
  intros r b X. induction X as [b k0 X K D|b k0 p X K SC I MD IH]; intros k K'; rewrite K in K'; injection K' as <-.
  - exists 1%nat. intros fuel L. destruct fuel; [lia|]. cbn [hoist]. rewrite D, orb_true_r. discriminate.
  - destruct (mdo_file _ _ MD) as (kp & KP). destruct (IH kp KP) as (F & HF). exists (S F). intros fuel L. destruct fuel; [lia|]. cbn [hoist]. destruct (_ || _); [discriminate|].
    destruct (filter _ (f_preds f b)) as [|q [|q2 l]] eqn:FI; try discriminate.
    assert (p = q) as <-. { eapply filter_one; [exact I| |exact FI]. apply (flow_out_bit f m Q). assumption. }
    destruct (f_succs f p) as [|x [|y l]]; try discriminate. rewrite KP. apply HF. lia.
Qed.
Lemma hoist_total : forall r b k, exists F, forall fuel, (F <= fuel)%nat -> hoist fuel f m b k r <> None.
Proof.
  intros r b k. destruct (filter (fun p => Z.testbit (fl_out m p) (bit_idx r)) (f_preds f b)) as [|p [|q l]] eqn:FI.
  - exists 1%nat. intros fuel L. destruct fuel; [lia|]. cbn [hoist]. rewrite FI. destruct (_ || _); discriminate.
  - assert (X : In p (filter (fun p => Z.testbit (fl_out m p) (bit_idx r)) (f_preds f b))) by (rewrite FI; left; reflexivity).
    apply filter_In in X. destruct X as [IP TB]. apply (flow_out_bit f m Q) in TB. destruct (mdo_file _ _ TB) as (kp & KP).
    destruct (hoist_total0 r p TB kp KP) as (F & HF). exists (S F). intros fuel L. destruct fuel; [lia|]. cbn [hoist]. rewrite FI. destruct (_ || _); [discriminate|].
    destruct (f_succs f p) as [|x [|y l]]; try discriminate. rewrite KP. apply HF. lia.
  - exists 1%nat. intros fuel L. destruct fuel; [lia|]. cbn [hoist]. rewrite FI. destruct (_ || _); discriminate.
Qed.
Lemma hoist_file : forall fuel b k r b' k', (k < f_n f)%nat -> hoist fuel f m b k r = Some (b', k') -> (k' < f_n f)%nat.
Proof.
  induction fuel as [|fuel IH]; intros b k r b' k' L E; [discriminate|]. cbn [hoist] in E. destruct (_ || _); [injection E as <- <-; assumption|].
  destruct (filter _ _) as [|p [|q l]]; try (injection E as <- <-; assumption). destruct (f_succs f p) as [|x [|y l]]; try (injection E as <- <-; assumption).
  destruct (f_file f p) as [kp|] eqn:KP; [|discriminate]. eapply IH; [|exact E]. apply (st_file _ B _ _ KP).
Qed.
(** A common bound for finitely many registers and packs. *)
Lemma hoist_total_all : forall (l : list pack) (rs : list areg), exists F, forall fuel, (F <= fuel)%nat -> forall p r, In p l -> In r rs ->
  hoist fuel f m (pk_bb p) (pk_file p) r <> None.
Proof.
  induction l as [|p l IH]; intros rs; [exists O; intros fuel _ p r []|].
  destruct (IH rs) as (F1 & H1).
  assert (X : exists F, forall fuel, (F <= fuel)%nat -> forall r, In r rs -> hoist fuel f m (pk_bb p) (pk_file p) r <> None).
  { clear IH F1 H1. induction rs as [|r rs IH]; [exists O; intros fuel _ r []|]. destruct IH as (F1 & H1), (hoist_total r (pk_bb p) (pk_file p)) as (F2 & H2).
    exists (max F1 F2). intros fuel L r' [<-|I]; [apply H2; lia|apply H1; [lia|assumption]]. }
  destruct X as (F2 & H2). exists (max F1 F2). intros fuel L p' r [<-|I] IR; [apply H2; [lia|assumption]|apply H1; [lia|assumption|assumption]].
Qed.
End Hoist.

(** ** Stores *)
Hypothesis UN : forall v, is_undef v = true -> forall e, env_ok e -> pv e v = None.
(** What is known about the stores for packs [ps] and registers [rs]. *)
Record stok (fuel : nat) (f : fn) (m : flowmap) (ps : list pack) (rs : list areg) (f' : fn) (ss : list store) : Prop := {
  sk_val : forall k r v, In (k, r, v) ss -> mapped r /\ (k < f_n f)%nat /\ rdok f' k r v;
  sk_from : forall k r v, In (k, r, v) ss -> exists p b, In p ps /\ Z.testbit (regset f m p) (bit_idx r) = true /\
            hoist fuel f m (pk_bb p) (pk_file p) r = Some (b, k);
  sk_all : forall p r, In p ps -> In r rs -> Z.testbit (regset f m p) (bit_idx r) = true ->
           exists b k, hoist fuel f m (pk_bb p) (pk_file p) r = Some (b, k) /\
           ((exists v, In (k, r, v) ss) \/ forall e, env_ok e -> mlog e (f_log f) k r = None);
}.
Lemma pack_reg_ok : forall fuel m p f r fc, BI f -> qinv f [] [] m -> In p (f_packs f) -> In (r, fc) (reg_slots A) ->
  hoist fuel f m (pk_bb p) (pk_file p) r <> None ->
  exists f' ss, pack_reg A is_undef fuel m p f (r, fc) = Some (f', ss) /\ BI f' /\ rext mapped f f' /\ stok fuel f m [p] [r] f' ss.
Proof.
  intros fuel m p f r fc BB Q IP IR HN. assert (MR : mapped r) by (apply in_map_iff; exists (r, fc); auto). pose proof BB as [CO B].
  rewrite (slots_native A r fc IR). unfold pack_reg. fold (regset f m p). destruct (Z.testbit (regset f m p) (bit_idx r)) eqn:TB.
  - destruct (hoist fuel f m (pk_bb p) (pk_file p) r) as [[b k]|] eqn:HO; [|contradiction].
    assert (LK : (k < f_n f)%nat) by exact (hoist_file f m B fuel (pk_bb p) (pk_file p) r b k (proj1 (st_pack _ B p IP)) HO).
    destruct (read_native A own f k r BB LK MR) as (h & v & G & BB' & RX & RD). rewrite G.
    exists (with_h f h), (if is_undef v then [] else [(k, r, v)]). split; [reflexivity|]. split; [assumption|]. split; [eapply rext_imp; [|exact RX]; intros r' <-; assumption|].
    split.
    + intros k' r' v' I. destruct (is_undef v); [destruct I|]. destruct I as [E|[]]. injection E as <- <- <-. auto.
    + intros k' r' v' I. destruct (is_undef v); [destruct I|]. destruct I as [E|[]]. injection E as <- <- <-. exists p, b. split; [left; reflexivity|]. auto.
    + intros p' r' [<-|[]] [<-|[]] _. exists b, k. split; [assumption|]. destruct (is_undef v) eqn:UV; [right|left; exists v; left; reflexivity].
      intros e E. destruct RD as (_ & _ & _ & RD). specialize (RD e E). rewrite (UN v UV e E) in RD. cbn [f_log with_h] in RD.
      destruct (mlog e (f_log f) k r) as [z|] eqn:M; [|reflexivity]. specialize (RD z eq_refl). discriminate.
  - exists f, []. split; [reflexivity|]. split; [assumption|]. split; [apply rext_refl|]. split; try contradiction.
    intros p' r' [<-|[]] [<-|[]] X. congruence.
Qed.
Lemma stok_app : forall fuel f m ps rs ps' rs' pa ra f1 f2 s1 s2, rext mapped f f1 -> rext mapped f1 f2 ->
  stok fuel f m ps rs f1 s1 -> stok fuel f1 m ps' rs' f2 s2 ->
  (forall p, In p ps \/ In p ps' -> In p pa) -> (forall p r, In p pa -> In r ra -> In p ps /\ In r rs \/ In p ps' /\ In r rs') ->
  stok fuel f m pa ra f2 (s1 ++ s2).
Proof.
  intros fuel f m ps rs ps' rs' pa ra f1 f2 s1 s2 X1 X2 S1 S2 IP IA. split.
  - intros k r v I. apply in_app_or in I. destruct I as [I|I].
    + destruct (sk_val _ _ _ _ _ _ _ S1 _ _ _ I) as (Y1 & Y2 & Y3). split; [assumption|]. split; [assumption|]. eapply rdok_ext; eassumption.
    + destruct (sk_val _ _ _ _ _ _ _ S2 _ _ _ I) as (Y1 & Y2 & Y3). destruct (rx_shape _ _ _ X1) as (EN & _). rewrite EN in Y2. auto.
  - intros k r v I. apply in_app_or in I. destruct I as [I|I].
    + destruct (sk_from _ _ _ _ _ _ _ S1 _ _ _ I) as (p & b & Y1 & Y2 & Y3). exists p, b. auto.
    + destruct (sk_from _ _ _ _ _ _ _ S2 _ _ _ I) as (p & b & Y1 & Y2 & Y3). exists p, b. rewrite (hoist_ext _ _ _ _ X1) in Y3. rewrite (regset_ext _ _ _ _ _ X1) in Y2. auto.
  - intros p r I1 I2 TB. destruct (IA p r I1 I2) as [[J1 J2]|[J1 J2]].
    + destruct (sk_all _ _ _ _ _ _ _ S1 p r J1 J2 TB) as (b & k & Y1 & Y2). exists b, k. split; [assumption|]. destruct Y2 as [[v V]|Y2]; [left; exists v; apply in_or_app; auto|auto].
    + rewrite <- (regset_ext _ _ _ _ _ X1) in TB. destruct (sk_all _ _ _ _ _ _ _ S2 p r J1 J2 TB) as (b & k & Y1 & Y2). exists b, k. rewrite (hoist_ext _ _ _ _ X1) in Y1. split; [assumption|].
      destruct Y2 as [[v V]|Y2]; [left; exists v; apply in_or_app; auto|]. right. rewrite (rx_log _ _ _ X1) in Y2. assumption.
Qed.
Lemma stok_nil : forall fuel f m ps rs f', (ps = [] \/ rs = []) -> stok fuel f m ps rs f' [].
Proof. intros fuel f m ps rs f' E. split; try contradiction. intros p r I1 I2. destruct E as [-> | ->]; contradiction. Qed.
Lemma qinv_ext : forall P f f' m, rext P f f' -> qinv f [] [] m -> qinv f' [] [] m.
Proof.
  intros P f f' m X Q. destruct (rx_shape _ _ _ X) as (_ & _ & _ & E4 & E5 & E6 & _ & _ & _ & E10). pose proof (rx_dirty _ _ _ X) as ED.
  assert (FR : forall b, freach f b -> freach f' b). { intros b Y. induction Y as [|b s Y IH I]; [constructor|]. eapply fr_s; [exact IH|]. rewrite E6. assumption. }
  assert (PRE : forall b, flow_pre f' m b = flow_pre f m b) by (intros; unfold flow_pre; rewrite E5; reflexivity).
  assert (POST : forall x b, flow_post f' x b = flow_post f x b).
  { intros x b. unfold flow_post. rewrite E4. destruct (f_file f b); [|reflexivity]. rewrite (starts_clean_ext _ _ _ E10), (dirty_mask_ext _ _ _ ED). reflexivity. }
  assert (MD : forall i b, mdo f i b -> mdo f' i b).
  { intros i b Y. induction Y as [b k Y K D|b k p Y K SC I MD IH].
    - eapply mdo_here; [auto|rewrite E4; eassumption|]. rewrite (dirty_mask_ext _ _ _ ED). assumption.
    - eapply mdo_thru; [auto|rewrite E4; eassumption| |rewrite E5; eassumption|assumption]. rewrite (starts_clean_ext _ _ _ E10). assumption. }
  split.
  - intros b [[]|[]].
  - intros b M. apply FR, (q_r _ _ _ _ Q). assumption.
  - intros b i Y. apply MD, (q_sound _ _ _ _ Q). assumption.
  - intros b i Y. destruct (q_in _ _ _ _ Q b i Y) as (Y1 & p & Y2 & Y3). split; [auto|]. exists p. rewrite E5. auto.
  - intros b x y M. rewrite POST. eapply (q_post _ _ _ _ Q); eassumption.
  - intros b x y M. rewrite PRE. eapply (q_pre _ _ _ _ Q); eassumption.
  - intros b x y i M. rewrite PRE. eapply (q_mono _ _ _ _ Q); eassumption.
  - intros b s. rewrite E6. apply (q_succ _ _ _ _ Q).
  - apply (q_0 _ _ _ _ Q).
Qed.
Lemma pack_regs_ok : forall fuel m p l f, BI f -> qinv f [] [] m -> In p (f_packs f) -> (forall x, In x l -> In x (reg_slots A)) ->
  (forall r, In r (map fst l) -> hoist fuel f m (pk_bb p) (pk_file p) r <> None) ->
  exists f' ss, pack_regs A is_undef fuel m p f l = Some (f', ss) /\ BI f' /\ rext mapped f f' /\ stok fuel f m [p] (map fst l) f' ss.
Proof.
  intros fuel m p. induction l as [|[r fc] l IH]; intros f BB Q IP IL HN.
  - exists f, []. split; [reflexivity|]. split; [assumption|]. split; [apply rext_refl|]. apply stok_nil. auto.
  - destruct (pack_reg_ok fuel m p f r fc BB Q IP (IL _ (or_introl eq_refl)) (HN r (or_introl eq_refl))) as (f1 & s1 & E1 & BB1 & X1 & S1).
    destruct (IH f1 BB1) as (f2 & s2 & E2 & BB2 & X2 & S2).
    { eapply qinv_ext; eassumption. }
    { destruct (rx_shape _ _ _ X1) as (_ & _ & _ & _ & _ & _ & -> & _). assumption. }
    { intros x I. apply IL. right. assumption. }
    { intros r' I. rewrite (hoist_ext _ _ _ _ X1). apply HN. right. assumption. }
    exists f2, (s1 ++ s2). cbn [pack_regs]. rewrite E1, E2. split; [reflexivity|]. split; [assumption|]. split; [eapply rext_trans; eassumption|].
    eapply stok_app; [exact X1|exact X2|exact S1|exact S2| |].
    + intros p' [I|I]; assumption.
    + intros p' r' I [<-|J]; [left|right]; split; try assumption. left. reflexivity.
Qed.
Lemma pack_all_ok : forall fuel m l f, BI f -> qinv f [] [] m -> (forall p, In p l -> In p (f_packs f)) ->
  (forall p r, In p l -> mapped r -> hoist fuel f m (pk_bb p) (pk_file p) r <> None) ->
  exists f' ss, pack_all A is_undef fuel m f l = Some (f', ss) /\ BI f' /\ rext mapped f f' /\ stok fuel f m l (map fst (reg_slots A)) f' ss.
Proof.
  intros fuel m. induction l as [|p l IH]; intros f BB Q IP HN.
  - exists f, []. split; [reflexivity|]. split; [assumption|]. split; [apply rext_refl|]. apply stok_nil. auto.
  - destruct (pack_regs_ok fuel m p (reg_slots A) f BB Q (IP _ (or_introl eq_refl)) (fun x I => I)) as (f1 & s1 & E1 & BB1 & X1 & S1).
    { intros r I. apply HN; [left; reflexivity|exact I]. }
    destruct (IH f1 BB1) as (f2 & s2 & E2 & BB2 & X2 & S2).
    { eapply qinv_ext; eassumption. }
    { destruct (rx_shape _ _ _ X1) as (_ & _ & _ & _ & _ & _ & -> & _). intros p' I. apply IP. right. assumption. }
    { intros p' r' I. rewrite (hoist_ext _ _ _ _ X1). apply HN. right. assumption. }
    exists f2, (s1 ++ s2). cbn [pack_all]. rewrite E1, E2. split; [reflexivity|]. split; [assumption|]. split; [eapply rext_trans; eassumption|].
    eapply stok_app; [exact X1|exact X2|exact S1|exact S2| |].
    + intros p' [[<-|[]]|I]; [left; reflexivity|right; assumption].
    + intros p' r' [<-|I] J; [left|right]; split; try assumption. left. reflexivity.
Qed.
Theorem optimize_ok : forall f, BI f -> (0 < f_nb f)%nat -> exists F, forall fuel, (F <= fuel)%nat ->
  exists m f' ss, flow fuel f [0%nat] [] (fun _ => None) = Some m /\ qinv f [] [] m /\
  optimize_packs A is_undef fuel f = Some (f', ss) /\ BI f' /\ rext mapped f f' /\ stok fuel f m (f_packs f) (map fst (reg_slots A)) f' ss.
Proof.
  intros f BB NB. pose proof BB as [CO B].
  destruct (flow_total f (st_edge _ B) (fun b t I => proj2 (proj1 (st_rng _ B b t I))) NB) as (F1 & H1).
  destruct (H1 F1 (Nat.le_refl _)) as (m & M1 & Q).
  (* the result does not depend on the fuel *)
  assert (MONO : forall fuel cur new m0 m1, flow fuel f cur new m0 = Some m1 -> forall d, flow (fuel + d) f cur new m0 = Some m1).
  { induction fuel as [|fuel IH]; intros cur new m0 m1 E d; [discriminate|]. cbn [flow Nat.add] in *. destruct cur; [destruct new; [assumption|apply IH; assumption]|apply IH; assumption]. }
  destruct (hoist_total_all f m Q (f_packs f) (map fst (reg_slots A))) as (F2 & H2).
  exists (max F1 F2). intros fuel L. exists m.
  assert (E : flow fuel f [0%nat] [] (fun _ => None) = Some m). { replace fuel with (F1 + (fuel - F1))%nat by lia. apply MONO. assumption. }
  destruct (pack_all_ok fuel m (f_packs f) f BB Q (fun p I => I)) as (f' & ss & P1 & P2 & P3 & P4).
  { intros p r I M. apply H2; [lia|assumption|exact M]. }
  exists f', ss. unfold optimize_packs. rewrite E. auto 10.
Qed.

(** ** PHI nodes *)
Definition incok (f : fn) (r : areg) (inc : list (nat * value)) : Prop :=
  forall p v, In (p, v) inc -> exists k, f_file f p = Some k /\ rdok f k r v.
Lemma incok_ext : forall P f f' r inc, rext P f f' -> incok f r inc -> incok f' r inc.
Proof.
  intros P f f' r inc X IC p v I. destruct (IC p v I) as (k & Y1 & Y2). exists k. destruct (rx_shape _ _ _ X) as (_ & _ & _ & E4 & _). rewrite E4. split; [assumption|].
  eapply rdok_ext; eassumption.
Qed.
Lemma fill_incoming_ok : forall r, mapped r -> forall l f, BI f -> (forall p, In p l -> f_file f p <> None) ->
  exists f' inc, fill_incoming A f r l = Some (f', inc) /\ BI f' /\ rext (eq r) f f' /\ map fst inc = l /\ incok f' r inc.
Proof.
  intros r MR. induction l as [|p l IH]; intros f BB FL.
  - exists f, []. split; [reflexivity|]. split; [assumption|]. split; [apply rext_refl|]. split; [reflexivity|]. intros p v [].
  - cbn [fill_incoming]. destruct (f_file f p) as [k|] eqn:K; [|destruct (FL p (or_introl eq_refl) K)]. pose proof BB as [CO B].
    destruct (read_native A own f k r BB (proj1 (st_file _ B p k K)) MR) as (h & v & G & BB1 & X1 & R1). rewrite G.
    destruct (IH (with_h f h) BB1) as (f' & inc & E & BB' & X' & MF & IC). { intros q I. cbn [with_h f_file]. apply FL. right. assumption. }
    rewrite E. exists f', ((p, v) :: inc). split; [reflexivity|]. split; [assumption|]. split; [eapply rext_trans; eassumption|]. split; [cbn [map fst]; congruence|].
    intros q w [I|I]; [|apply IC; assumption]. injection I as <- <-. exists k. destruct (rx_shape _ _ _ X') as (_ & _ & _ & E4 & _). rewrite E4. split; [assumption|].
    eapply rdok_ext; eassumption.
Qed.

Lemma block_phis_in : forall f b r, In r (block_phis f b) <-> In (b, r) (h_phis (f_h f)).
Proof.
  intros f b r. unfold block_phis. rewrite in_map_iff. split.
  - intros ([b' r'] & E & I). apply filter_In in I. destruct I as [I Q]. cbn [fst snd] in *. apply Nat.eqb_eq in Q. congruence.
  - intros I. exists (b, r). split; [reflexivity|]. apply filter_In. split; [assumption|]. cbn. apply Nat.eqb_refl.
Qed.
Lemma block_phis_ext : forall P f f' b, rext P f f' -> exists l, block_phis f' b = block_phis f b ++ l.
Proof.
  intros P f f' b X. destruct (rx_phis _ _ _ X) as (l & E & _). unfold block_phis. rewrite E, filter_app, map_app. eexists. reflexivity.
Qed.
Definition phok (f : fn) (ps : list phi) : Prop :=
  forall b r inc, In (b, r, inc) ps -> map fst inc = f_preds f b /\ incok f r inc.
Lemma phok_ext : forall P f f' ps, rext P f f' -> phok f ps -> phok f' ps.
Proof.
  intros P f f' ps X PO b r inc I. destruct (PO b r inc I) as [Y1 Y2]. destruct (rx_shape _ _ _ X) as (_ & _ & _ & _ & E5 & _). rewrite E5. split; [assumption|].
  eapply incok_ext; eassumption.
Qed.
Lemma phok_app : forall f p q, phok f p -> phok f q -> phok f (p ++ q).
Proof. intros f p q X Y b r inc I. apply in_app_or in I. destruct I; auto. Qed.

Lemma phis_nd : forall f, BI f -> NoDup (h_phis (f_h f)).
Proof. intros f [CO _]. apply (ho_nd _ _ _ _ (co_hok _ _ _ _ _ _ _ _ CO)). Qed.
Lemma nodup_app_r : forall T (a b : list T) x, NoDup (a ++ b) -> In x a -> ~ In x b.
Proof.
  intros T a b x ND I J. induction a as [|y a IH]; [destruct I|]. cbn in ND. inversion ND as [|? ? N1 N2]; subst. destruct I as [->|I]; [|auto].
  apply N1. apply in_or_app. auto.
Qed.
Lemma fill_regs_ok : forall b l f, BI f -> (forall r, In r l -> In (b, r) (h_phis (f_h f))) ->
  exists f' ps, fill_regs A f b l = Some (f', ps) /\ BI f' /\ rext mapped f f' /\ block_phis f' b = block_phis f b /\ map fst ps = map (pair b) l /\ phok f' ps.
Proof.
  intros b. induction l as [|r l IH]; intros f BB IL.
  - exists f, []. split; [reflexivity|]. split; [assumption|]. split; [apply rext_refl|]. split; [reflexivity|]. split; [reflexivity|]. intros b' r' inc [].
  - pose proof BB as [CO B]. pose proof (co_phim _ _ _ _ _ _ _ _ CO _ (IL r (or_introl eq_refl))) as MR. cbn [snd] in MR.
    destruct (fill_incoming_ok r MR (f_preds f b) f BB) as (f1 & inc & E1 & BB1 & X1 & MF & IC).
    { intros p I. apply (st_edge _ B) in I. apply (st_rng _ B p b I). }
    cbn [fill_regs]. rewrite E1.
    assert (BP : block_phis f1 b = block_phis f b).
    { destruct (rx_phis _ _ _ X1) as (nl & E & F). unfold block_phis. rewrite E, filter_app, map_app.
      assert (X : filter (fun x => Nat.eqb (fst x) b) nl = []).
      { destruct (filter (fun x => Nat.eqb (fst x) b) nl) as [|y ys] eqn:FI; [reflexivity|]. exfalso.
        assert (I : In y (filter (fun x => Nat.eqb (fst x) b) nl)) by (rewrite FI; left; reflexivity). apply filter_In in I. destruct I as [I Q]. apply Nat.eqb_eq in Q.
        rewrite Forall_forall in F. pose proof (F y I) as R. pose proof (phis_nd f1 BB1) as ND. rewrite E in ND.
        destruct y as [y1 y2]. cbn [fst snd] in *. subst y1 y2. exact (nodup_app_r _ _ _ _ ND (IL r (or_introl eq_refl)) I). }
      rewrite X. apply app_nil_r. }
    rewrite BP, Nat.eqb_refl.
    destruct (IH f1 BB1) as (f2 & ps & E2 & BB2 & X2 & BP2 & MP & PO).
    { intros r' I. destruct (rx_phis _ _ _ X1) as (nl & E & F). rewrite E. apply in_or_app. left. apply IL. right. assumption. }
    rewrite E2. exists f2, ((b, r, inc) :: ps). split; [reflexivity|]. split; [assumption|].
    assert (X1' : rext mapped f f1). { eapply rext_imp; [|exact X1]. intros r' <-. assumption. }
    split; [eapply rext_trans; eassumption|]. split; [congruence|]. split; [cbn [map fst]; congruence|].
    intros b' r' inc' [I|I]; [|apply PO; assumption]. injection I as <- <- <-. destruct (rx_shape _ _ _ X1) as (_ & _ & _ & _ & E5 & _), (rx_shape _ _ _ X2) as (_ & _ & _ & _ & E5' & _).
    rewrite E5', E5. split; [assumption|]. eapply incok_ext; eassumption.
Qed.

(** Which PHI nodes have been filled. *)
Definition kfil (keys : list (nat * areg)) (b : nat) : list areg := map snd (filter (fun x => Nat.eqb (fst x) b) keys).
Definition finv (f : fn) (filled : nat -> nat) (keys : list (nat * areg)) : Prop :=
  forall b, kfil keys b = firstn (filled b) (block_phis f b) /\ (filled b <= length (block_phis f b))%nat.
Lemma kfil_app : forall a c b, kfil (a ++ c) b = kfil a b ++ kfil c b.
Proof. intros. unfold kfil. rewrite filter_app, map_app. reflexivity. Qed.
Lemma kfil_pair : forall b l b', kfil (map (pair b) l) b' = if Nat.eqb b b' then l else [].
Proof.
  intros b l b'. unfold kfil. induction l as [|r l IH]; cbn [map filter fst]; [destruct (Nat.eqb b b'); reflexivity|].
  destruct (Nat.eqb b b'); cbn [map snd]; congruence.
Qed.
Lemma kfil_in : forall keys b r, In (b, r) keys <-> In r (kfil keys b).
Proof.
  intros keys b r. unfold kfil. rewrite in_map_iff. split.
  - intros I. exists (b, r). split; [reflexivity|]. apply filter_In. split; [assumption|]. apply Nat.eqb_refl.
  - intros ([b' r'] & E & I). apply filter_In in I. destruct I as [I Q]. apply Nat.eqb_eq in Q. cbn in *. congruence.
Qed.
Lemma finv_ext : forall P f f' filled keys, rext P f f' -> finv f filled keys -> finv f' filled keys.
Proof.
  intros P f f' filled keys X FI b. destruct (FI b) as [Y1 Y2]. destruct (block_phis_ext _ _ _ b X) as (l & ->). rewrite app_length. split; [|lia].
  rewrite firstn_app. replace (filled b - length (block_phis f b))%nat with O by lia. cbn [firstn]. rewrite app_nil_r. assumption.
Qed.
Lemma fill_phis_ok : forall f filled keys b, BI f -> finv f filled keys ->
  exists f' ps, fill_phis A f filled b = Some (f', updn filled b (length (block_phis f' b)), ps, match skipn (filled b) (block_phis f b) with [] => false | _ => true end) /\
    BI f' /\ rext mapped f f' /\ phok f' ps /\ map fst ps = map (pair b) (skipn (filled b) (block_phis f b)) /\
    finv f' (updn filled b (length (block_phis f' b))) (keys ++ map fst ps) /\ (skipn (filled b) (block_phis f b) = [] -> f' = f /\ ps = []).
Proof.
  intros f filled keys b BB FI. pose proof BB as [CO B]. unfold fill_phis.
  assert (MX : match f_max f b with Some m => Nat.leb (length (f_preds f b)) m | None => true end = true).
  { destruct (f_max f b) as [m|] eqn:M; [|reflexivity]. apply Nat.leb_le. apply (st_max _ B). assumption. }
  rewrite MX.
  destruct (fill_regs_ok b (skipn (filled b) (block_phis f b)) f BB) as (f' & ps & E & BB' & X & BP & MP & PO).
  { intros r I. apply block_phis_in. rewrite <- (firstn_skipn (filled b)). apply in_or_app. auto. }
  rewrite E. exists f', ps. split; [reflexivity|]. split; [assumption|]. split; [assumption|]. split; [assumption|]. split; [assumption|]. split.
  - intros b'. rewrite kfil_app, MP, kfil_pair. destruct (finv_ext _ _ _ _ _ X FI b') as [Y1 Y2]. unfold updn. destruct (Nat.eqb_spec b b') as [<-|Q].
    + rewrite Y1, BP. split; [|lia]. rewrite firstn_skipn. symmetry. apply firstn_all.
    + rewrite app_nil_r. auto.
  - intros SK. rewrite SK in E. cbn [fill_regs] in E. injection E as <- <-. auto.
Qed.
Lemma fill_round_ok : forall ord f filled keys, BI f -> finv f filled keys ->
  exists f' filled' ps c, fill_round A f filled ord = Some (f', filled', ps, c) /\ BI f' /\ rext mapped f f' /\ phok f' ps /\ finv f' filled' (keys ++ map fst ps) /\
    (c = true -> ps <> []) /\ (c = false -> f' = f /\ ps = [] /\ forall b, In b ord -> skipn (filled b) (block_phis f b) = []).
Proof.
  induction ord as [|b ord IH]; intros f filled keys BB FI.
  - exists f, filled, [], false. split; [reflexivity|]. split; [assumption|]. split; [apply rext_refl|]. split; [intros b' r' inc []|]. cbn [map]. rewrite app_nil_r. split; [assumption|].
    split; [discriminate|]. intros _. split; [reflexivity|]. split; [reflexivity|]. intros b [].
  - destruct (fill_phis_ok f filled keys b BB FI) as (f1 & p1 & E1 & BB1 & X1 & PO1 & MP1 & FI1 & N1).
    destruct (IH f1 _ _ BB1 FI1) as (f2 & filled2 & p2 & c2 & E2 & BB2 & X2 & PO2 & FI2 & T2 & F2).
    cbn [fill_round]. rewrite E1, E2. eexists f2, filled2, (p1 ++ p2), _. split; [reflexivity|]. split; [assumption|]. split; [eapply rext_trans; eassumption|].
    split; [apply phok_app; [eapply phok_ext; eassumption|assumption]|]. split; [rewrite map_app, app_assoc; assumption|]. split.
    + intros C. apply orb_true_iff in C. intros E. apply app_eq_nil in E. destruct E as [-> ->]. destruct C as [C|C]; [|exact (T2 C eq_refl)].
      destruct (skipn (filled b) (block_phis f b)); [discriminate|]. discriminate MP1.
    + intros C. apply orb_false_iff in C. destruct C as [C1 C2]. destruct (skipn (filled b) (block_phis f b)) eqn:SK; [|discriminate].
      destruct (N1 eq_refl) as [-> ->]. destruct (F2 C2) as (-> & -> & F3). split; [reflexivity|]. split; [reflexivity|]. intros b' [<-|I]; [assumption|].
      specialize (F3 b' I). unfold updn in F3. destruct (Nat.eqb_spec b b') as [EQ|Q]; [rewrite <- EQ|]; assumption.
Qed.
Lemma finv_nodup : forall f filled keys, BI f -> finv f filled keys -> NoDup keys /\ forall x, In x keys -> In x (h_phis (f_h f)).
Proof.
  intros f filled keys BB FI.
  assert (IN : forall x, In x keys -> In x (h_phis (f_h f))).
  { intros [b r] I. apply block_phis_in. apply kfil_in in I. rewrite (proj1 (FI b)) in I. rewrite <- (firstn_skipn (filled b)). apply in_or_app. auto. }
  split; [|assumption].
  assert (NB : forall l : list (nat * areg), NoDup l -> forall b, NoDup (kfil l b)).
  { intros l ND b. induction ND as [|[b' r] l NI ND IH]; [constructor|]. unfold kfil in *. cbn [filter fst]. destruct (Nat.eqb_spec b' b) as [->|Q]; [|assumption]. cbn [map snd]. constructor; [|assumption].
    intros I. apply NI. apply kfil_in. exact I. }
  assert (NK : forall b, NoDup (kfil keys b)).
  { intros b. rewrite (proj1 (FI b)). pose proof (NB _ (phis_nd f BB) b) as N. change (kfil (h_phis (f_h f)) b) with (block_phis f b) in N. rewrite <- (firstn_skipn (filled b)) in N.
    clear -N. induction (firstn (filled b) (block_phis f b)) as [|x l IH]; [constructor|]. cbn in N. inversion N as [|? ? N1 N2]; subst. constructor; [|auto]. intros I. apply N1. apply in_or_app. auto. }
  clear -NK. induction keys as [|[b r] keys IH]; [constructor|]. constructor.
  - intros I. specialize (NK b). unfold kfil in NK. cbn [filter fst] in NK. rewrite Nat.eqb_refl in NK. cbn [map snd] in NK. inversion NK as [|? ? N1 _]; subst. apply N1.
    apply (proj1 (kfil_in keys b r)). assumption.
  - apply IH. intros b'. specialize (NK b'). unfold kfil in *. cbn [filter fst] in NK. destruct (Nat.eqb b b'); [inversion NK; assumption|assumption].
Qed.
Definition phiuse (f : fn) : list (nat * areg) := list_prod (seq 0 (f_nb f)) (map fst (reg_slots A)).
Lemma phis_use : forall f x, BI f -> In x (h_phis (f_h f)) -> In x (phiuse f).
Proof.
  intros f [b r] [CO B] I. pose proof (co_phim _ _ _ _ _ _ _ _ CO _ I) as M.
  assert (F : f_first f b <> None).
  { destruct (ho_phi _ _ _ _ (co_hok _ _ _ _ _ _ _ _ CO) b r I) as (k & X & _). congruence. }
  apply in_prod; [|exact M]. apply in_seq. destruct (f_first f b) as [k|] eqn:E; [|contradiction]. destruct (st_first _ B _ _ E) as (_ & _ & X & _). lia.
Qed.
Lemma fill_loop_ok : forall ord d f filled keys, BI f -> finv f filled keys -> (length (phiuse f) - length keys <= d)%nat ->
  forall fuel, (d < fuel)%nat -> exists f' filled' ps, fill_loop A fuel f filled ord = Some (f', ps) /\ BI f' /\ rext mapped f f' /\ phok f' ps /\
    finv f' filled' (keys ++ map fst ps) /\ forall b, In b ord -> skipn (filled' b) (block_phis f' b) = [].
Proof.
  intros ord. induction d as [d IH] using lt_wf_ind. intros f filled keys BB FI LD fuel LF. destruct fuel as [|fuel]; [lia|].
  destruct (fill_round_ok ord f filled keys BB FI) as (f1 & filled1 & p1 & c & E1 & BB1 & X1 & PO1 & FI1 & T1 & F1). cbn [fill_loop]. rewrite E1. destruct c.
  - specialize (T1 eq_refl). assert (U : phiuse f1 = phiuse f). { unfold phiuse. destruct (rx_shape _ _ _ X1) as (_ & -> & _). reflexivity. }
    destruct (finv_nodup f1 _ _ BB1 FI1) as [ND IN].
    assert (LE : (length (keys ++ map fst p1) <= length (phiuse f))%nat).
    { rewrite <- U. apply NoDup_incl_length; [assumption|]. intros x I. apply phis_use; [assumption|]. auto. }
    assert (LP : (0 < length p1)%nat) by (destruct p1; [contradiction|cbn; lia]). rewrite app_length, map_length in LE.
    assert (D1 : (length (phiuse f1) - length (keys ++ map fst p1) < d)%nat). { rewrite app_length, map_length, U. unfold phi in *. lia. }
    destruct (IH _ D1 f1 filled1 _ BB1 FI1 (Nat.le_refl _) fuel ltac:(lia)) as (f2 & filled2 & p2 & E2 & BB2 & X2 & PO2 & FI2 & FIN).
    rewrite E2. exists f2, filled2, (p1 ++ p2). split; [reflexivity|]. split; [assumption|]. split; [eapply rext_trans; eassumption|].
    split; [apply phok_app; [eapply phok_ext; eassumption|assumption]|]. split; [rewrite map_app, app_assoc; assumption|assumption].
  - destruct (F1 eq_refl) as (-> & -> & FIN). exists f, filled1, []. split; [reflexivity|]. split; [assumption|]. split; [apply rext_refl|]. split; [intros b' r' inc []|].
    split; [assumption|]. intros b I. specialize (FIN b I).
    (* both describe the filled PHI nodes of the block *)
    destruct (FI b) as [Y1 Y2], (FI1 b) as [Z1 Z2]. cbn [map] in Z1. rewrite app_nil_r, Y1 in Z1.
    assert (L1 : length (firstn (filled b) (block_phis f b)) = length (block_phis f b)). { rewrite firstn_length. pose proof (f_equal (@length _) FIN) as L. rewrite skipn_length in L. cbn in L. lia. }
    rewrite Z1, firstn_length in L1. apply skipn_all2. lia.
Qed.

(** ** All of it *)
Record finished (fuel : nat) (f : fn) (m : flowmap) (L : lifted) : Prop := {
  fd_m : qinv f [] [] m;
  fd_BI : BI (l_fn L);
  fd_ext : rext mapped f (l_fn L);
  fd_st : stok fuel f m (f_packs f) (map fst (reg_slots A)) (l_fn L) (l_stores L);
  fd_early : l_early L = h_loads (f_h f);
  fd_phok : phok (l_fn L) (l_phis L);
  fd_nodup : NoDup (map fst (l_phis L));
  fd_keys : forall b r, In (b, r) (map fst (l_phis L)) <-> In (b, r) (h_phis (f_h (l_fn L)));
}.
Theorem finish_ok : forall f ord, BI f -> (0 < f_nb f)%nat -> (forall b, (0 < b < f_nb f)%nat -> In b ord) ->
  exists F, forall fuel, (F <= fuel)%nat -> exists m L, flow fuel f [0%nat] [] (fun _ => None) = Some m /\ finish A is_undef fuel f ord = Some L /\ finished fuel f m L.
Proof.
  intros f ord BB NB OR. destruct (optimize_ok f BB NB) as (F1 & H1).
  exists (max F1 (S (length (phiuse f)))). intros fuel LF. destruct (H1 fuel ltac:(lia)) as (m & f1 & ss & M & Q & E1 & BB1 & X1 & S1).
  assert (FI0 : finv f1 (fun _ => O) []). { intros b. cbn. split; [reflexivity|lia]. }
  assert (U : phiuse f1 = phiuse f). { unfold phiuse. destruct (rx_shape _ _ _ X1) as (_ & -> & _). reflexivity. }
  destruct (fill_loop_ok ord (length (phiuse f)) f1 (fun _ => O) [] BB1 FI0 ltac:(rewrite U; cbn; lia) fuel ltac:(lia)) as (f2 & filled & ps & E2 & BB2 & X2 & PO & FI2 & FIN).
  cbn [app] in FI2. destruct (finv_nodup f2 _ _ BB2 FI2) as [ND IN].
  exists m, (Lifted f2 (h_loads (f_h f)) ss ps). split; [assumption|]. unfold finish. rewrite E1, E2. split; [reflexivity|].
  assert (X : rext mapped f f2) by (eapply rext_trans; eassumption).
  split; cbn [l_fn l_early l_stores l_phis]; try assumption.
  - rewrite <- (app_nil_r ss). eapply stok_app; [exact X1|exact X2|exact S1| | |].
    + apply (stok_nil fuel f1 m [] [] f2). auto.
    + intros p [I|[]]; assumption.
    + intros p r I J. left. auto.
  - reflexivity.
  - intros b r. split; [apply IN|]. intros I. apply kfil_in. rewrite (proj1 (FI2 b)).
    assert (LB : In b ord).
    { apply OR. pose proof BB2 as [CO B]. pose proof (phis_use f2 _ BB2 I) as PU. apply in_prod_iff in PU. destruct PU as [PU _]. apply in_seq in PU.
      destruct (rx_shape _ _ _ X) as (_ & E & _). rewrite <- E. split; [|lia]. destruct b; [exfalso|lia].
      destruct (ho_phi _ _ _ _ (co_hok _ _ _ _ _ _ _ _ CO) _ r I) as (k & Y1 & Y2 & _). destruct (st_first _ B _ _ Y1) as (Y3 & _ & _ & _ & Y4). rewrite (Y4 eq_refl) in *.
      destruct (st_0 _ B Y3) as [_ Y5]. congruence. }
    apply block_phis_in in I. rewrite <- (firstn_skipn (filled b) (block_phis f2 b)), (FIN b LB), app_nil_r in I. assumption.
Qed.
End Finish.
