(** Decoding: exactness, termination, block starts and code ranges. *)

From Coq Require Import ZArith Lia ZifyBool List Bool Arith.
From Verif Require Import Bits Decode.
Import ListNotations.
Open Scope Z_scope.

(** ** Specification *)
(** Does execution possibly continue after an instruction of this kind (calls
    return only if they are lifted as calls)? *)
Definition follows (cf : bool) (k : kind) : bool :=
  match k with KOther | KCond => true | KCall => cf | KBranch | KUnknown => false end.

Section Ok.
Variable Ins : Type.
Variable ilen : Ins -> Z.
Variable icls : Ins -> kind * Z.
Notation dst := (dst Ins).
Notation step := (step Ins ilen icls).
Notation iter := (iter Ins ilen icls).
Notation decode := (decode Ins ilen icls).
Notation d_end := (d_end Ins ilen).
Notation d_kind := (d_kind Ins icls).
Notation d_to := (d_to Ins icls).
Notation inv := (inv Ins ilen icls).

Section Cfg.
Variable dec : Z -> option Ins.
Variable cf : bool.

(** Control flow edges the guest code has. *)
Definition succ (i : Ins) (a b : Z) : Prop :=
  (snd (icls i) = b /\ b <> 0) \/ (follows cf (fst (icls i)) = true /\ b = add64 a (ilen i)).
(** Addresses reachable from the entry points [E]. *)
Inductive reach (E : list Z) : Z -> Prop :=
| reach0 : forall a, In a E -> reach E a
| reachS : forall a i b, reach E a -> dec a = Some i -> succ i a b -> reach E b.

Lemma falls_all : forall k, falls MAll cf k = follows cf k.
Proof. intros []; unfold falls, ends, follows; cbn; rewrite ?negb_involutive, ?andb_true_r; reflexivity. Qed.

(** The successor at [t] will be looked at, or starts a block. *)
Definition sok (s : dst) (t : Z) : Prop :=
  dec t = None \/ In t (f_stack _ s) \/ (exists st, f_cur _ s = Some (st, t, true)) \/
  exists i d, nth_error (f_ins _ s) i = Some d /\ d_start _ d = t /\ d_new _ d = true.
Record cinv (E : list Z) (s : dst) : Prop := {
  c_inv : inv s;
  c_stack : forall a, In a (f_stack _ s) -> reach E a;
  c_cur : forall st a nb, f_cur _ s = Some (st, a, nb) -> reach E a;
  c_ins : forall i d, nth_error (f_ins _ s) i = Some d -> reach E (d_start _ d) /\ dec (d_start _ d) = Some (d_i _ d);
  c_entry : forall a, In a E -> sok s a;
  c_tgt : forall i d, nth_error (f_ins _ s) i = Some d -> d_to d <> 0 -> sok s (d_to d);
  c_fall : forall i d, nth_error (f_ins _ s) i = Some d -> follows cf (d_kind d) = true ->
     sok s (d_end d) \/
     (d_kind d = KOther /\
      ((exists st nb, f_cur _ s = Some (st, d_end d, nb) /\ S i = length (f_ins _ s)) \/
       (exists d', nth_error (f_ins _ s) (S i) = Some d' /\ d_start _ d' = d_end d)));
}.

Lemma sok_mono : forall s s' t,
  (forall a, In a (f_stack _ s) -> In a (f_stack _ s') \/ exists st, f_cur _ s' = Some (st, a, true)) ->
  (forall st, f_cur _ s = Some (st, t, true) -> sok s' t) ->
  (forall i d, nth_error (f_ins _ s) i = Some d -> exists d', nth_error (f_ins _ s') i = Some d' /\ d_start _ d' = d_start _ d /\ (d_new _ d = true -> d_new _ d' = true)) ->
  sok s t -> sok s' t.
Proof.
  intros s s' t S1 S2 S3 [X|[X|[[st X]|(i & d & X & Y & Z0)]]].
  - left. assumption.
  - destruct (S1 t X) as [Y|Y]; [right; left|right; right; left]; assumption.
  - apply (S2 st X).
  - destruct (S3 i d X) as (d' & N & SD & ND). right. right. right. exists i, d'. split; [assumption|]. split; [congruence|auto].
Qed.
Lemma mark_keeps : forall n l i d, nth_error l i = Some d ->
  exists d', nth_error (mark Ins n l) i = Some d' /\ d_start _ d' = d_start _ d /\ (d_new _ d = true -> d_new _ d' = true) /\ d_i _ d' = d_i _ d.
Proof.
  intros n l i d N. rewrite nth_mark, N. eexists. split; [reflexivity|]. destruct (Nat.eqb i n); cbn; auto.
Qed.
Lemma mark_inv : forall n l i d', nth_error (mark Ins n l) i = Some d' ->
  exists d, nth_error l i = Some d /\ d_start _ d' = d_start _ d /\ d_i _ d' = d_i _ d.
Proof.
  intros n l i d' N. rewrite nth_mark in N. destruct (nth_error l i) as [d|]; [|discriminate]. injection N as <-.
  exists d. destruct (Nat.eqb i n); auto.
Qed.

Lemma step_cinv : forall E s, cinv E s ->
  match step dec MAll cf s with
  | Next _ s' => cinv E s'
  | Done _ s' => s' = s /\ f_stack _ s = [] /\ f_cur _ s = None
  | Bad _ => exists a, reach E a /\ reserved a = true
  end.
Proof.
  intros E s C. pose proof (step_inv Ins ilen icls dec MAll cf s (c_inv _ _ C)) as V'.
  unfold step, Decode.step in *. destruct (f_cur _ s) as [[[start cur] nb]|] eqn:FC.
  - pose proof (c_cur _ _ C _ _ _ FC) as RC. destruct (e_dec (f_map _ s cur)) eqn:D.
    + (* already decoded *)
      unfold finish in *. set (s' := DS _ _ _ _ _ _) in *.
      destruct (v_dec _ _ _ _ (c_inv _ _ C) cur D) as (d0 & N0 & S0).
      assert (CUR : sok s' cur).
      { right. right. right. eexists _, _. split; [subst s'; cbn; rewrite nth_mark, N0; reflexivity|]. rewrite Nat.eqb_refl. cbn. auto. }
      assert (MONO : forall t, sok s t -> sok s' t).
      { intros t. apply sok_mono; [auto| |].
        - intros st Q. rewrite FC in Q. injection Q as _ <- _. assumption.
        - intros i d N. destruct (mark_keeps (e_idx (f_map _ s cur)) _ i d N) as (d' & X1 & X2 & X3 & _). exists d'. auto. }
      split; try assumption.
      * intros a X. apply (c_stack _ _ C a X).
      * intros st a b X. discriminate.
      * intros i d' N. apply mark_inv in N. destruct N as (d & N & SD & ID). rewrite SD, ID. apply (c_ins _ _ C i d N).
      * intros a X. apply MONO, (c_entry _ _ C a X).
      * intros i d' N T. apply mark_inv in N. destruct N as (d & N & SD & ID). unfold Decode.d_to in *. rewrite ID in *.
        apply MONO. exact (c_tgt _ _ C i d N T).
      * intros i d' N F. apply mark_inv in N. destruct N as (d & N & SD & ID). unfold Decode.d_end, Decode.d_kind in *. rewrite SD, ID in *.
        destruct (c_fall _ _ C i d N F) as [X|(K & [(st & b & X & L)|(d2 & N2 & S2)])].
        -- left. auto.
        -- left. rewrite FC in X. injection X as _ X _. unfold Decode.d_end in X. rewrite <- X. assumption.
        -- right. split; [assumption|]. right. destruct (mark_keeps (e_idx (f_map _ s cur)) _ _ d2 N2) as (d3 & N3 & S3 & _).
           exists d3. split; [exact N3|]. rewrite S3. exact S2.
    + destruct (dec cur) as [i|] eqn:DC.
      * (* newly decoded *)
        set (mp1 := upd_map _ _ _) in *. destruct (icls i) as [k t] eqn:IC. cbv zeta in *.
        set (d := DI Ins i cur nb _ _ _) in *. set (l1 := f_ins _ s ++ [d]) in *.
        assert (DT : d_to d = t) by (unfold Decode.d_to; cbn; rewrite IC; reflexivity).
        assert (DK : d_kind d = k) by (unfold Decode.d_kind; cbn; rewrite IC; reflexivity).
        assert (DE : d_end d = add64 cur (ilen i)) by reflexivity.
        assert (RT : t <> 0 -> reach E t).
        { intros T0. eapply reachS; [exact RC|exact DC|]. left. rewrite IC. auto. }
        assert (RF : follows cf k = true -> reach E (add64 cur (ilen i))).
        { intros F. eapply reachS; [exact RC|exact DC|]. right. rewrite IC. auto. }
        destruct (negb (t =? 0) && reserved t) eqn:NR.
        { exists t. apply andb_prop in NR. destruct NR as [NR1 NR2]. split; [|exact NR2]. apply RT. destruct (Z.eqb_spec t 0); [discriminate NR1|assumption]. }
        set (x := if t =? 0 then _ else _) in *.
        assert (X : let '(l2, mp2, stk2) := x in
           (forall j y, nth_error l1 j = Some y -> exists y', nth_error l2 j = Some y' /\ d_start _ y' = d_start _ y /\ (d_new _ y = true -> d_new _ y' = true) /\ d_i _ y' = d_i _ y) /\
           (forall j y', nth_error l2 j = Some y' -> exists y, nth_error l1 j = Some y /\ d_start _ y' = d_start _ y /\ d_i _ y' = d_i _ y) /\
           (forall a, In a (f_stack _ s) -> In a stk2) /\ (forall a, In a stk2 -> In a (f_stack _ s) \/ (a = t /\ t <> 0)) /\
           length l2 = length l1 /\
           (t <> 0 -> In t stk2 \/ exists j y', nth_error l2 j = Some y' /\ d_start _ y' = t /\ d_new _ y' = true)).
        { subst x. destruct (Z.eqb_spec t 0) as [T0|T0].
          - split; [intros j y N; exists y; auto|]. split; [intros j y N; exists y; auto|]. split; [auto|]. split; [auto|]. split; [reflexivity|]. contradiction.
          - destruct (e_dec (mp1 t)) eqn:DT1.
            + split; [intros j y N; destruct (mark_keeps (e_idx (mp1 t)) l1 j y N) as (y' & A1 & A2 & A3 & A4); exists y'; auto|].
              split; [intros j y' N; apply mark_inv in N; exact N|]. split; [auto|]. split; [auto|]. split; [apply mark_length|].
              intros _. right. destruct (pre_append Ins ilen icls s start cur nb d (c_inv _ _ C) FC D eq_refl eq_refl) as (P1 & _).
              destruct (P1 t DT1) as (y & N & SY). fold l1 in N. fold mp1 in N. eexists _, _. split; [rewrite nth_mark, N; reflexivity|].
              rewrite Nat.eqb_refl. cbn. auto.
            + split; [intros j y N; exists y; auto|]. split; [intros j y N; exists y; auto|]. split; [intros; right; assumption|].
              split; [intros a [<-|Q]; auto|]. split; [reflexivity|]. intros _. left. left. reflexivity. }
        destruct x as [[l2 mp2] stk2]. destruct X as (X1 & X2 & X3 & X4 & X5 & X6).
        assert (NTH : forall j y', nth_error l2 j = Some y' ->
                  (exists y, nth_error (f_ins _ s) j = Some y /\ d_start _ y' = d_start _ y /\ d_i _ y' = d_i _ y) \/
                  (j = length (f_ins _ s) /\ d_start _ y' = cur /\ d_i _ y' = i)).
        { intros j y' N. destruct (X2 j y' N) as (y & N1 & S1 & I1). apply nth_snoc in N1. destruct N1 as [[N1 _]|[-> ->]]; [left; eauto|right; auto]. }
        assert (OLD : forall j y, nth_error (f_ins _ s) j = Some y -> exists y', nth_error l2 j = Some y' /\ d_start _ y' = d_start _ y /\ (d_new _ y = true -> d_new _ y' = true)).
        { intros j y N. destruct (X1 j y) as (y' & A1 & A2 & A3 & _); [subst l1; rewrite nth_error_app1; [assumption|apply nth_error_Some; congruence]|]. exists y'. auto. }
        assert (LAST : exists y', nth_error l2 (length (f_ins _ s)) = Some y' /\ d_start _ y' = cur /\ (nb = true -> d_new _ y' = true)).
        { destruct (X1 (length (f_ins _ s)) d) as (y' & A1 & A2 & A3 & _); [subst l1; rewrite nth_error_app2, Nat.sub_diag by lia; reflexivity|].
          exists y'. auto. }
        assert (L2 : length l2 = S (length (f_ins _ s))) by (rewrite X5; subst l1; rewrite app_length; cbn; lia).
        assert (GEN : forall mp3 rg c', inv (DS Ins l2 mp3 rg stk2 c') ->
                  (follows cf k = true -> c' = Some (start, add64 cur (ilen i), starts_block k)) ->
                  (follows cf k = false -> c' = None) ->
                  cinv E (DS Ins l2 mp3 rg stk2 c')).
        { intros mp3 rg c' V3 CT CN. set (s' := DS Ins l2 mp3 rg stk2 c') in *.
          assert (CUR : nb = true -> sok s' cur).
          { intros NB. destruct LAST as (y' & A1 & A2 & A3). right. right. right. exists (length (f_ins _ s)), y'. auto. }
          assert (MONO : forall u, sok s u -> sok s' u).
          { intros u. apply sok_mono; [auto| |assumption]. intros st Q. rewrite FC in Q. injection Q as _ <- Q. auto. }
          split; [assumption| | | | | |].
          - intros a Q. destruct (X4 a Q) as [Y|[-> Y]]; [apply (c_stack _ _ C a Y)|auto].
          - intros st a b Q. destruct (follows cf k) eqn:F.
            + cbn in Q. rewrite (CT eq_refl) in Q. injection Q as _ <- _. auto.
            + cbn in Q. rewrite (CN eq_refl) in Q. discriminate.
          - intros j y' N. destruct (NTH j y' N) as [(y & N1 & S1 & I1)|(-> & S1 & I1)]; rewrite S1, I1; [apply (c_ins _ _ C j y N1)|auto].
          - intros a Q. apply MONO, (c_entry _ _ C a Q).
          - intros j y' N T. destruct (NTH j y' N) as [(y & N1 & S1 & I1)|(-> & S1 & I1)].
            + unfold Decode.d_to in *. rewrite I1 in *. apply MONO. exact (c_tgt _ _ C j y N1 T).
            + unfold Decode.d_to in *. rewrite I1, IC in *. cbn in T |- *. destruct (X6 T) as [Q|(j & z & Q)]; [right; left; assumption|].
              right. right. right. exists j, z. assumption.
          - intros j y' N F. destruct (NTH j y' N) as [(y & N1 & S1 & I1)|(-> & S1 & I1)].
            + unfold Decode.d_end, Decode.d_kind in *. rewrite S1, I1 in *.
              destruct (c_fall _ _ C j y N1 F) as [Q|(K & [(st & b & Q & L)|(d2 & N2 & S2)])].
              * left. auto.
              * right. split; [assumption|]. right. rewrite FC in Q. injection Q as _ Q _. unfold Decode.d_end in Q.
                destruct LAST as (z & A1 & A2 & _). exists z. rewrite L. split; [assumption|]. rewrite A2. exact Q.
              * right. split; [assumption|]. right. destruct (OLD _ d2 N2) as (d3 & N3 & S3 & _). exists d3. split; [exact N3|]. rewrite S3. exact S2.
            + unfold Decode.d_end, Decode.d_kind in *. rewrite S1, I1, IC in *. cbn [fst] in *. rewrite F in CT. specialize (CT eq_refl).
              destruct (starts_block k) eqn:SB.
              * left. right. right. left. exists start. exact CT.
              * right. split; [destruct k; cbn in F, SB; congruence|]. left. exists start, false. split; [exact CT|]. cbn. lia. }
        rewrite falls_all in *. destruct (follows cf k) eqn:F.
        -- destruct (reserved (add64 cur (ilen i))) eqn:RV; [exists (add64 cur (ilen i)); split; [apply RF; reflexivity|exact RV]|]. apply GEN; [assumption|auto|discriminate].
        -- unfold finish in *. apply GEN; [assumption|discriminate|auto].
      * (* decoding failed *)
        unfold finish in *. set (s' := DS _ _ _ _ _ _) in *.
        assert (MONO : forall t, sok s t -> sok s' t).
        { intros t. apply sok_mono; [auto| |intros j y N; exists y; auto]. intros st Q. rewrite FC in Q. injection Q as _ <- _. left. assumption. }
        split; try assumption.
        -- apply (c_stack _ _ C).
        -- intros st a b Q. discriminate.
        -- apply (c_ins _ _ C).
        -- intros a Q. apply MONO, (c_entry _ _ C a Q).
        -- intros j y N T. apply MONO. exact (c_tgt _ _ C j y N T).
        -- intros j y N F. destruct (c_fall _ _ C j y N F) as [Q|(K & [(st & b & Q & L)|Q])].
           ++ left. auto.
           ++ left. left. rewrite FC in Q. injection Q as _ Q _. rewrite <- Q. assumption.
           ++ right. split; [assumption|]. right. exact Q.
  - destruct (f_stack _ s) as [|a stk] eqn:FS; [auto|].
    assert (RA : reach E a) by (apply (c_stack _ _ C); rewrite FS; left; reflexivity). destruct (reserved a) eqn:RV; [exists a; split; assumption|].
    set (s' := DS _ _ _ _ _ _) in *.
    assert (MONO : forall t, sok s t -> sok s' t).
    { intros t. apply sok_mono; [|rewrite FC; discriminate|intros j y N; exists y; auto].
      intros b Q. rewrite FS in Q. destruct Q as [<-|Q]; [right; exists a; reflexivity|left; assumption]. }
    split; try assumption.
    + intros b Q. apply (c_stack _ _ C). rewrite FS. right. assumption.
    + intros st b nb Q. injection Q as <- <- <-. assumption.
    + apply (c_ins _ _ C).
    + intros b Q. apply MONO, (c_entry _ _ C b Q).
    + intros j y N T. apply MONO. exact (c_tgt _ _ C j y N T).
    + intros j y N F. destruct (c_fall _ _ C j y N F) as [Q|(K & [(st & b & Q & L)|Q])].
      * left. auto.
      * congruence.
      * right. split; [assumption|]. right. exact Q.
Qed.

(** Termination measure. *)
Definition undec (U : list Z) (s : dst) : nat := length (filter (fun a => negb (e_dec (f_map _ s a))) U).
Definition meas (U : list Z) (s : dst) : nat :=
  (3 * undec U s + 2 * length (f_stack _ s) + match f_cur _ s with Some _ => 1 | None => 0 end)%nat.
Lemma filter_le : forall T (f g : T -> bool) l, (forall x, g x = true -> f x = true) -> (length (filter g l) <= length (filter f l))%nat.
Proof.
  intros T f g l L. induction l as [|x l IH]; [reflexivity|]. cbn. destruct (g x) eqn:G; [rewrite (L x G); cbn; lia|]. destruct (f x); cbn; lia.
Qed.
Lemma filter_lt : forall T (f g : T -> bool) l y, (forall x, g x = true -> f x = true) -> In y l -> f y = true -> g y = false ->
  (length (filter g l) < length (filter f l))%nat.
Proof.
  intros T f g l y L. induction l as [|x l IH]; [intros []|]. intros [->|I0] FY GY; cbn.
  - rewrite FY, GY. cbn. pose proof (filter_le T f g l L). lia.
  - specialize (IH I0 FY GY). destruct (g x) eqn:G; [rewrite (L x G); cbn; lia|]. destruct (f x); cbn; lia.
Qed.
Lemma step_meas : forall E U s s', cinv E s -> (forall a, reach E a -> In a U) ->
  step dec MAll cf s = Next _ s' -> (meas U s' < meas U s)%nat.
Proof.
  intros E U s s' C RU ST. unfold step, Decode.step in ST. destruct (f_cur _ s) as [[[start cur] nb]|] eqn:FC.
  - pose proof (c_cur _ _ C _ _ _ FC) as RC. destruct (e_dec (f_map _ s cur)) eqn:D.
    + unfold finish in ST. injection ST as <-. unfold meas, undec. rewrite FC. cbn. lia.
    + destruct (dec cur) as [i|].
      * destruct (icls i) as [k t]. cbv zeta in ST. destruct (negb (t =? 0) && reserved t); [discriminate|].
        set (mp1 := upd_map _ _ _) in ST. set (l1 := f_ins _ s ++ _) in ST.
        assert (U1 : forall mp stk l r c, (forall a, e_dec (mp a) = e_dec (mp1 a)) -> (length stk <= S (length (f_stack _ s)))%nat ->
                  (meas U (DS Ins l mp r stk c) < meas U s)%nat).
        { intros mp stk l r c EM LS. unfold meas, undec. rewrite FC. cbn [f_map f_stack f_cur].
          pose proof (filter_lt Z (fun a => negb (e_dec (f_map Ins s a))) (fun a => negb (e_dec (mp a))) U cur) as Q.
          assert (X : forall x, negb (e_dec (mp x)) = true -> negb (e_dec (f_map Ins s x)) = true).
          { intros x. rewrite EM. subst mp1. unfold upd_map. destruct (Z.eqb_spec cur x) as [QQ|]; [cbn; discriminate|auto]. }
          specialize (Q X (RU cur RC)). cbv beta in Q. rewrite D in Q. specialize (Q eq_refl).
          rewrite EM in Q. subst mp1. unfold upd_map in Q at 1. rewrite Z.eqb_refl in Q. specialize (Q eq_refl).
          destruct c; lia. }
        assert (DI1 : forall m0 a b, e_dec (inc_preds m0 a b) = e_dec (m0 b)).
        { intros m0 a b. unfold inc_preds, upd_map. destruct (Z.eqb_spec a b) as [->|]; reflexivity. }
        destruct (t =? 0).
        -- destruct (falls MAll cf k).
           ++ destruct (reserved _); [discriminate|]. injection ST as <-. apply U1; [intros; apply DI1|lia].
           ++ unfold finish in ST. injection ST as <-. apply U1; [reflexivity|lia].
        -- destruct (falls MAll cf k).
           ++ destruct (reserved _); [discriminate|]. injection ST as <-. apply U1; [intros; rewrite !DI1; reflexivity|]. destruct (e_dec (mp1 t)); cbn; lia.
           ++ unfold finish in ST. injection ST as <-. apply U1; [intros; rewrite !DI1; reflexivity|]. destruct (e_dec (mp1 t)); cbn; lia.
      * unfold finish in ST. injection ST as <-. unfold meas, undec. rewrite FC. cbn. lia.
  - destruct (f_stack _ s) as [|a stk] eqn:FS; [discriminate|]. destruct (reserved a); [discriminate|]. injection ST as <-.
    unfold meas, undec. rewrite FC, FS. cbn. lia.
Qed.

Definition idle (s : dst) : Prop := f_stack _ s = [] /\ f_cur _ s = None.
Lemma iter_all : forall E U, (forall a, reach E a -> In a U) ->
  forall n s, cinv E s -> (meas U s < n)%nat ->
  (exists s', iter dec MAll cf n s = Some (Some s') /\ cinv E s' /\ idle s') \/
  (iter dec MAll cf n s = Some None /\ exists a, reach E a /\ reserved a = true).
Proof.
  intros E U RU. induction n as [|n IH]; intros s C L; [lia|]. cbn [Decode.iter].
  pose proof (step_cinv E s C) as SC. destruct (step dec MAll cf s) as [s1|s1|] eqn:ST.
  - destruct SC as (-> & Q1 & Q2). left. exists s. split; [reflexivity|]. split; [assumption|split; assumption].
  - apply IH; [assumption|]. pose proof (step_meas E U s s1 C RU ST). lia.
  - right. split; [reflexivity|exact SC].
Qed.
Lemma iter_cinv : forall E n s s', cinv E s ->
  iter dec MAll cf n s = Some (Some s') -> cinv E s' /\ idle s'.
Proof.
  intros E. induction n as [|n IH]; intros s s' C X; [discriminate|]. cbn [Decode.iter] in X.
  pose proof (step_cinv E s C) as SC. destruct (step dec MAll cf s) as [s1|s1|].
  - injection X as <-. destruct SC as (-> & Q1 & Q2). split; [assumption|split; assumption].
  - eauto.
  - discriminate X.
Qed.
(** Starting a further call. *)
Lemma reach_more : forall E a b, reach E b -> reach (a :: E) b.
Proof. intros E a b R. induction R as [b I0|b i c _ IH D S1]; [apply reach0; right; assumption|eapply reachS; eassumption]. Qed.
Lemma start_cinv : forall E s a, cinv E s -> idle s -> cinv (a :: E) (DS Ins (f_ins _ s) (f_map _ s) (f_ranges _ s) [a] None).
Proof.
  intros E s a C [I1 I2].
  assert (MONO : forall t, sok s t -> sok (DS Ins (f_ins _ s) (f_map _ s) (f_ranges _ s) [a] None) t).
  { intros t [X|[X|[[st X]|X]]]; [left; assumption|rewrite I1 in X; destruct X|congruence|right; right; right; exact X]. }
  split.
  - destruct (c_inv _ _ C). split; cbn; try assumption. discriminate.
  - intros b [<-|[]]. apply reach0. left. reflexivity.
  - discriminate.
  - intros i d N. destruct (c_ins _ _ C i d N). split; [apply reach_more|]; assumption.
  - intros b [<-|Q]; [right; left; left; reflexivity|]. apply MONO, (c_entry _ _ C b Q).
  - intros i d N T. apply MONO, (c_tgt _ _ C i d N T).
  - intros i d N F. destruct (c_fall _ _ C i d N F) as [Q|(K & [(st & b & Q & L)|Q])]; [left; auto|congruence|].
    right. split; [assumption|]. right. exact Q.
Qed.
Lemma cinv_nil : cinv [] (dst0 Ins).
Proof.
  split; cbn; try (intros ? []; fail); try discriminate.
  - apply inv0.
  - intros i d N. destruct i; discriminate.
  - intros i d N. destruct i; discriminate.
  - intros i d N. destruct i; discriminate.
Qed.

(** The states after successive calls of ll_func_decode_cfg at the entry points [E]. *)
Inductive calls : list Z -> dst -> Prop :=
| calls0 : calls [] (dst0 Ins)
| calls1 : forall E s n a s', calls E s -> decode dec MAll cf n s a = Some (Some s') -> calls (a :: E) s'.
Lemma calls_cinv : forall E s, calls E s -> cinv E s /\ idle s.
Proof.
  intros E s D. induction D as [|E s n a s' D IH X]; [split; [apply cinv_nil|split; reflexivity]|].
  destruct IH as [C I0]. eapply iter_cinv; [|exact X]. apply start_cinv; assumption.
Qed.
Lemma calls_total : forall E s a U, calls E s -> (forall b, reach (a :: E) b -> In b U) ->
  exists n, (exists s', decode dec MAll cf n s a = Some (Some s')) \/
    (decode dec MAll cf n s a = Some None /\ exists b, reach (a :: E) b /\ reserved b = true).
Proof.
  intros E s a U D RU. destruct (calls_cinv E s D) as [C I0].
  set (s1 := DS Ins (f_ins _ s) (f_map _ s) (f_ranges _ s) [a] None).
  exists (S (meas U s1)).
  destruct (iter_all (a :: E) U RU (S (meas U s1)) s1) as [(s' & X & _)|X]; [apply start_cinv; assumption|lia|left; exists s'; exact X|right; exact X].
Qed.
Definition has (s : dst) (a : Z) : Prop := exists d, In d (f_ins _ s) /\ d_start _ d = a.
Lemma has_dec : forall E s a, cinv E s -> has s a -> reach E a /\ dec a <> None.
Proof.
  intros E s a C (d & I0 & <-). apply In_nth_error in I0. destruct I0 as [i N]. destruct (c_ins _ _ C i d N) as [R D]. split; [assumption|congruence].
Qed.
Lemma sok_has : forall s t, idle s -> sok s t -> dec t <> None -> has s t.
Proof.
  intros s t [I1 I2] [X|[X|[[st X]|(i & d & N & S1 & _)]]] D; [contradiction|rewrite I1 in X; destruct X|congruence|].
  exists d. split; [eapply nth_error_In; eassumption|assumption].
Qed.
Lemma calls_exact : forall E s, calls E s ->
  forall a, has s a <-> (reach E a /\ dec a <> None).
Proof.
  intros E s D a. destruct (calls_cinv E s D) as [C I0]. split; [eapply has_dec; eassumption|].
  intros [R DA]. induction R as [a I1|a i b R IH DI S1].
  - apply sok_has; [assumption|apply (c_entry _ _ C a I1)|assumption].
  - destruct IH as (d & I1 & SA); [congruence|]. apply In_nth_error in I1. destruct I1 as [j N].
    destruct (c_ins _ _ C j d N) as [_ DD]. rewrite SA, DI in DD. injection DD as DD.
    destruct S1 as [[T T0]|[F ->]].
    + apply sok_has; [assumption| |assumption].
      pose proof (c_tgt _ _ C j d N) as X. unfold Decode.d_to in X. rewrite <- DD, T in X. exact (X T0).
    + pose proof (c_fall _ _ C j d N) as X. unfold Decode.d_kind, Decode.d_end in X. rewrite <- DD, SA in X.
      destruct (X F) as [Q|(K & [(st & nb & Q & _)|(d' & N' & S')])].
      * apply sok_has; assumption.
      * destruct I0. congruence.
      * exists d'. split; [eapply nth_error_In; eassumption|assumption].
Qed.
(** Block starts. *)
Lemma calls_blocks : forall E s, calls E s ->
  forall i d t d', nth_error (f_ins _ s) i = Some d -> In d' (f_ins _ s) -> d_start _ d' = t ->
  ((d_to d = t /\ t <> 0) \/
   (follows cf (d_kind d) = true /\ d_end d = t /\ (d_kind d <> KOther \/ nth_error (f_ins _ s) (S i) <> Some d'))) ->
  d_new _ d' = true.
Proof.
  intros E s D i d t d' N I' ST X. destruct (calls_cinv E s D) as [C I0].
  assert (UNIQ : forall j y, nth_error (f_ins _ s) j = Some y -> d_start _ y = t -> y = d' /\ nth_error (f_ins _ s) j = Some d').
  { intros j y NJ SY. apply In_nth_error in I'. destruct I' as [j' NJ'].
    pose proof (v_ins _ _ _ _ (c_inv _ _ C) j y NJ) as [_ V1]. pose proof (v_ins _ _ _ _ (c_inv _ _ C) j' d' NJ') as [_ V2].
    rewrite SY in V1. rewrite ST in V2. rewrite V1 in V2. subst j'. split; congruence. }
  assert (SOK : sok s t -> d_new _ d' = true).
  { intros [Q|[Q|[[st Q]|(j & y & NJ & SY & NY)]]].
    - destruct (has_dec E s t C) as [_ Z0]; [exists d'; auto|]. contradiction.
    - rewrite (proj1 I0) in Q. destruct Q.
    - rewrite (proj2 I0) in Q. discriminate.
    - destruct (UNIQ j y NJ SY) as [<- _]. assumption. }
  destruct X as [[T T0]|(F & EQ & ALT)].
  - apply SOK. rewrite <- T. apply (c_tgt _ _ C i d N). congruence.
  - destruct (c_fall _ _ C i d N F) as [Q|(K & [(st & nb & Q & _)|(y & NY & SY)])].
    + apply SOK. rewrite <- EQ. assumption.
    + rewrite (proj2 I0) in Q. discriminate.
    + destruct (UNIQ (S i) y NY) as [-> NY']; [congruence|]. destruct ALT; contradiction.
Qed.
End Cfg.

(** ** Code ranges *)
Definition covered (s : dst) (b : Z) : Prop := exists d, In d (f_ins _ s) /\ d_start _ d <= b < d_start _ d + ilen (d_i _ d).
Definition in_ranges (l : list (Z * Z)) (b : Z) : Prop := exists lo hi, In (lo, hi) l /\ lo <= b < hi.
(** No instruction wraps around or touches the last byte of the address space. *)
Definition nowrap (dec : Z -> option Ins) : Prop := forall a i, dec a = Some i -> 0 <= a /\ 0 < ilen i /\ a + ilen i < 2^64.
Definition rinv (s : dst) : Prop := exists pre,
  f_ranges _ s = pre ++ [(0, 0)] /\ Forall (fun r => fst r < snd r) pre /\
  (forall st cur nb, f_cur _ s = Some (st, cur, nb) -> st <= cur) /\
  forall b, covered s b <-> (in_ranges pre b \/ exists st cur nb, f_cur _ s = Some (st, cur, nb) /\ st <= b < cur).
Lemma ins_range_pre : forall pre x r, ins_range (pre ++ [x]) r = pre ++ [r; x].
Proof.
  induction pre as [|y pre IH]; intros x r; [reflexivity|]. cbn [app ins_range]. rewrite IH. destruct pre; reflexivity.
Qed.
Lemma covered_mark : forall s n mp r stk c b, covered (DS Ins (mark Ins n (f_ins _ s)) mp r stk c) b <-> covered s b.
Proof.
  intros. unfold covered. cbn. split; intros (d & I0 & B).
  - apply In_nth_error in I0. destruct I0 as [i N]. apply mark_inv in N. destruct N as (d0 & N & S0 & ID). rewrite S0, ID in B.
    exists d0. split; [eapply nth_error_In; eassumption|assumption].
  - apply In_nth_error in I0. destruct I0 as [i N]. destruct (mark_keeps n _ i d N) as (d0 & N0 & S0 & _ & ID). rewrite <- S0, <- ID in B.
    exists d0. split; [eapply nth_error_In; eassumption|assumption].
Qed.
Lemma finish_rinv : forall ins mp pre stk start cur (P : Z -> Prop), Forall (fun r => fst r < snd r) pre -> start <= cur ->
  (forall b, (exists d, In d ins /\ d_start _ d <= b < d_start _ d + ilen (d_i _ d)) <-> (in_ranges pre b \/ start <= b < cur)) ->
  rinv (DS Ins ins mp (if cur =? start then pre ++ [(0, 0)] else ins_range (pre ++ [(0, 0)]) (start, cur)) stk None).
Proof.
  intros ins mp pre stk start cur P F L C. destruct (Z.eqb_spec cur start) as [->|N].
  - exists pre. split; [reflexivity|]. split; [assumption|]. split; [discriminate|]. intros b. unfold covered. cbn. rewrite C.
    split; intros [X|X]; auto; [lia|destruct X as (? & ? & ? & X & _); discriminate].
  - exists (pre ++ [(start, cur)]). cbn [f_ranges]. rewrite ins_range_pre, <- app_assoc. split; [reflexivity|].
    split; [apply Forall_app; split; [assumption|constructor; [cbn; lia|constructor]]|]. split; [discriminate|].
    intros b. unfold covered. cbn. rewrite C. unfold in_ranges. split.
    + intros [(lo & hi & I0 & B)|B]; left; [exists lo, hi|exists start, cur]; rewrite in_app_iff; cbn; auto.
    + intros [(lo & hi & I0 & B)|(? & ? & ? & X & _)]; [|discriminate]. rewrite in_app_iff in I0. cbn in I0.
      destruct I0 as [I0|[I0|[]]]; [left; exists lo, hi; auto|]. injection I0 as <- <-. auto.
Qed.
Lemma step_rinv : forall dec m cf s, nowrap dec -> rinv s ->
  match step dec m cf s with Next _ s' | Done _ s' => rinv s' | Bad _ => True end.
Proof.
  intros dec m cf s NW R. pose proof R as (pre & ER & FR & CO & CV). unfold step, Decode.step.
  destruct (f_cur _ s) as [[[start cur] nb]|] eqn:FC.
  - specialize (CO start cur nb eq_refl).
    assert (CV1 : forall b, covered s b <-> (in_ranges pre b \/ start <= b < cur)).
    { intros b. rewrite CV. split; intros [X|X]; auto; [destruct X as (? & ? & ? & X & Y); injection X as <- <- <-; auto|right; eauto]. }
    destruct (e_dec (f_map _ s cur)).
    + unfold finish. rewrite ER. apply finish_rinv; [exact (fun _ => True)|assumption|assumption|].
      intros b. rewrite <- CV1. rewrite <- (covered_mark s (e_idx (f_map _ s cur)) (f_map _ s) [] [] None). reflexivity.
    + destruct (dec cur) as [i|] eqn:DC.
      * destruct (NW cur i DC) as (A0 & LI & AL).
        assert (CE : add64 cur (ilen i) = cur + ilen i) by (unfold add64; apply trunc_small; split; lia). rewrite CE.
        assert (CV2 : forall d b, d_start Ins d = cur -> d_i _ d = i ->
           ((exists y, In y (f_ins _ s ++ [d]) /\ d_start _ y <= b < d_start _ y + ilen (d_i _ y)) <-> (in_ranges pre b \/ start <= b < cur + ilen i))).
        { intros d b SD ID. split.
          - intros (y & I0 & B). rewrite in_app_iff in I0. destruct I0 as [I0|[<-|[]]].
            + assert (X : covered s b) by (exists y; auto). rewrite CV1 in X. destruct X; [auto|right; lia].
            + rewrite SD, ID in B. right. lia.
          - intros X. destruct (Z.lt_ge_cases b cur) as [LT|GE]; [|destruct (Z.lt_ge_cases b (cur + ilen i))].
            + assert (Y : covered s b) by (rewrite CV1; destruct X; [auto|right; lia]). destruct Y as (y & I0 & B). exists y. rewrite in_app_iff. auto.
            + exists d. rewrite in_app_iff, SD, ID. cbn. split; [auto|lia].
            + destruct X as [X|X]; [|lia]. assert (Y : covered s b) by (rewrite CV1; auto). destruct Y as (y & I0 & B). exists y. rewrite in_app_iff. auto. }
        assert (MAIN : match (let (k, t) := icls i in
          let d := DI Ins i cur nb (match k with KCall => negb cf | _ => false end) (falls m cf k) (negb (t =? 0)) in
          let ins1 := f_ins _ s ++ [d] in
          let mp1 := upd_map (f_map _ s) cur (Entry (e_preds (f_map _ s cur)) true (length (f_ins _ s))) in
          if negb (t =? 0) && reserved t then Bad Ins else
          let '(ins2, mp2, stk2) :=
            if t =? 0 then (ins1, mp1, f_stack _ s)
            else (if e_dec (mp1 t) then mark Ins (e_idx (mp1 t)) ins1 else ins1, inc_preds mp1 t,
                  if e_dec (mp1 t) then f_stack _ s else t :: f_stack _ s) in
          if falls m cf k then
            if reserved (cur + ilen i) then Bad Ins
            else Next Ins (DS Ins ins2 (inc_preds mp2 (cur + ilen i)) (f_ranges _ s) stk2 (Some (start, cur + ilen i, starts_block k)))
          else finish Ins m ins2 mp2 (f_ranges _ s) stk2 start (cur + ilen i)) with Next _ s' | Done _ s' => rinv s' | Bad _ => True end).
        { destruct (icls i) as [k t]. cbv zeta. set (d := DI Ins i cur nb _ _ _). set (l1 := f_ins _ s ++ [d]). set (mp1 := upd_map _ _ _).
          destruct (negb (t =? 0) && reserved t); [exact I|]. set (x := if t =? 0 then _ else _).
          assert (X : let '(l2, mp2, stk2) := x in forall b, (exists y, In y l2 /\ d_start _ y <= b < d_start _ y + ilen (d_i _ y)) <-> (in_ranges pre b \/ start <= b < cur + ilen i)).
          { subst x. destruct (t =? 0); [intros b; apply CV2; reflexivity|]. destruct (e_dec (mp1 t)); [|intros b; apply CV2; reflexivity].
            intros b. rewrite <- (CV2 d b eq_refl eq_refl). fold l1.
            exact (covered_mark (DS Ins l1 mp1 [] [] None) (e_idx (mp1 t)) mp1 [] [] None b). }
          destruct x as [[l2 mp2] stk2]. destruct (falls m cf k).
          - destruct (reserved _); [exact I|]. exists pre. cbn. split; [assumption|]. split; [assumption|]. split.
            + intros st c b Q. injection Q as <- <- <-. lia.
            + intros b. unfold covered. cbn. rewrite X. split; intros [Y|Y]; auto; [right; eauto|].
              destruct Y as (? & ? & ? & Y & B). injection Y as <- <- <-. auto.
          - unfold finish. rewrite ER. apply finish_rinv; [exact (fun _ => True)|assumption|lia|]. exact X. }
        destruct m; [|exact MAIN|exact MAIN].
        unfold finish. rewrite ER. apply finish_rinv; [exact (fun _ => True)|assumption|lia|]. intros b. apply CV2; reflexivity.
      * unfold finish. rewrite ER. apply finish_rinv; [exact (fun _ => True)|assumption|assumption|]. exact CV1.
  - destruct (f_stack _ s) as [|a stk]; [assumption|]. destruct (reserved a); [exact I|]. exists pre. cbn. split; [assumption|]. split; [assumption|].
    split; [intros st c b Q; injection Q as <- <- <-; lia|]. intros b. unfold covered in *. cbn. rewrite CV.
    split; intros [X|X]; auto; [destruct X as (? & ? & ? & X & _); congruence|]. destruct X as (? & ? & ? & X & B). injection X as <- <- <-. lia.
Qed.
(** Sequences of calls with any modes and readers that do not wrap. *)
Inductive decoded_nw : dst -> Prop :=
| decoded_nw0 : decoded_nw (dst0 Ins)
| decoded_nw1 : forall s dec m cf n a s', decoded_nw s -> nowrap dec -> decode dec m cf n s a = Some (Some s') -> decoded_nw s'.
Lemma iter_idle : forall dec m cf n s s', iter dec m cf n s = Some (Some s') -> idle s'.
Proof.
  intros dec m cf. induction n as [|n IH]; intros s s' X; [discriminate|]. cbn [Decode.iter] in X.
  destruct (step dec m cf s) as [s1|s1|] eqn:ST; [|eauto|discriminate]. injection X as <-.
  unfold step, Decode.step in ST. destruct (f_cur _ s) as [[[start cur] nb]|] eqn:FC.
  - exfalso. unfold finish in ST. destruct (e_dec _); [discriminate|]. destruct (dec cur); [|discriminate].
    destruct m; try discriminate; destruct (icls i) as [k t]; cbv zeta in ST; destruct (negb (t =? 0) && reserved t); try discriminate;
    destruct (t =? 0); destruct (falls _ cf k); try discriminate; destruct (reserved _); discriminate.
  - destruct (f_stack _ s) as [|a stk] eqn:FS; [|destruct (reserved a); discriminate]. injection ST as <-. split; assumption.
Qed.
Lemma decoded_ranges : forall s, decoded_nw s -> rinv s /\ idle s.
Proof.
  intros s D. induction D as [|s dec m cf n a s' _ IH NW X].
  - split; [|split; reflexivity]. exists []. split; [reflexivity|]. split; [constructor|]. split; [discriminate|].
    intros b. split; [intros (d & [] & _)|]. intros [(lo & hi & [] & _)|(? & ? & ? & Q & _)]. discriminate.
  - split; [|eapply iter_idle; exact X]. destruct IH as [(pre & ER & FR & CO & CV) [I1 I2]].
    assert (R0 : rinv (DS Ins (f_ins _ s) (f_map _ s) (f_ranges _ s) [a] None)).
    { exists pre. cbn. split; [assumption|]. split; [assumption|]. split; [discriminate|]. intros b.
      transitivity (covered s b); [reflexivity|]. rewrite CV, I2. reflexivity. }
    unfold Decode.decode in X. revert R0 X. generalize (DS Ins (f_ins _ s) (f_map _ s) (f_ranges _ s) [a] None) as s0.
    induction n as [|n IHn]; intros s0 R0 X; [discriminate|]. cbn [Decode.iter] in X.
    pose proof (step_rinv dec m cf s0 NW R0) as S1. destruct (step dec m cf s0); [injection X as <-; assumption|eauto|discriminate].
Qed.

(** ** Edges *)
(** Number of control flow edges of the decoded code into [a]. *)
Definition real1 (cf : bool) (a : Z) (d : dinst Ins) : nat :=
  ((if negb (a =? 0)%Z && (d_to d =? a)%Z then 1 else 0) + (if follows cf (d_kind d) && (d_end d =? a)%Z then 1 else 0))%nat.
Definition real (cf : bool) (a : Z) (s : dst) : nat := list_sum (map (real1 cf a) (f_ins _ s)).

(** A property of all decoded instructions. *)
Definition newd (m : mode) (cf : bool) (i : Ins) (cur : Z) (nb : bool) : dinst Ins :=
  match m with
  | MInstr => DI Ins i cur nb false false false
  | _ => let (k, t) := icls i in DI Ins i cur nb (match k with KCall => negb cf | _ => false end) (falls m cf k) (negb (t =? 0))
  end.
Lemma forall_mark : forall (P : dinst Ins -> Prop) l n, (forall d, P d -> P (set_new Ins d)) -> Forall P l -> Forall P (mark Ins n l).
Proof. intros P. induction l as [|d l IH]; intros n H F; inversion F; subst; destruct n; cbn; auto. Qed.
Lemma step_forall : forall (P : dinst Ins -> Prop) dec m cf s, (forall d, P d -> P (set_new Ins d)) ->
  (forall i cur nb, P (newd m cf i cur nb)) -> Forall P (f_ins _ s) ->
  match step dec m cf s with Next _ s' | Done _ s' => Forall P (f_ins _ s') | Bad _ => True end.
Proof.
  intros P dec m cf s PM PN F. unfold step, Decode.step. destruct (f_cur _ s) as [[[start cur] nb]|].
  - destruct (e_dec _); [unfold finish; cbn; apply forall_mark; assumption|].
    destruct (dec cur) as [i|]; [|unfold finish; cbn; assumption].
    assert (FN : Forall P (f_ins _ s ++ [newd m cf i cur nb])) by (apply Forall_app; split; [assumption|constructor; [apply PN|constructor]]).
    unfold newd in FN. destruct m; [unfold finish; cbn; exact FN| |];
    (destruct (icls i) as [k t]; cbv zeta; destruct (negb (t =? 0) && reserved t); [exact I|];
     set (x := if t =? 0 then _ else _);
     assert (X : Forall P (fst (fst x))) by
       (subst x; destruct (t =? 0); [exact FN|]; destruct (e_dec _); [apply forall_mark; assumption|exact FN]);
     destruct x as [[l2 mp2] stk2]; destruct (falls _ cf k); [destruct (reserved _); [exact I|exact X]|unfold finish; exact X]).
  - destruct (f_stack _ s); [assumption|]. destruct (reserved _); [exact I|assumption].
Qed.
Lemma decode_forall : forall (P : dinst Ins -> Prop) dec m cf n s a s', (forall d, P d -> P (set_new Ins d)) ->
  (forall i cur nb, P (newd m cf i cur nb)) -> Forall P (f_ins _ s) -> decode dec m cf n s a = Some (Some s') -> Forall P (f_ins _ s').
Proof.
  intros P dec m cf n s a s' PM PN. unfold Decode.decode. intros F.
  assert (F0 : Forall P (f_ins _ (DS Ins (f_ins _ s) (f_map _ s) (f_ranges _ s) [a] None))) by exact F. revert F0.
  generalize (DS Ins (f_ins _ s) (f_map _ s) (f_ranges _ s) [a] None) as s0. clear F.
  induction n as [|n IH]; intros s0 F X; [discriminate|]. cbn [Decode.iter] in X.
  pose proof (step_forall P dec m cf s0 PM PN F) as S1. destruct (step dec m cf s0); [injection X as <-; assumption|eauto|discriminate].
Qed.

(** Sequences of decode calls of any kind with a fixed configuration. *)
Inductive decoded_cf (cf : bool) : dst -> Prop :=
| decoded_cf0 : decoded_cf cf (dst0 Ins)
| decoded_cf1 : forall s dec m n a s', decoded_cf cf s -> decode dec m cf n s a = Some (Some s') -> decoded_cf cf s'.
(** Sequences of ll_func_decode_cfg calls, possibly with different memory contents. *)
Inductive decoded_all (cf : bool) : dst -> Prop :=
| decoded_all0 : decoded_all cf (dst0 Ins)
| decoded_all1 : forall s dec n a s', decoded_all cf s -> decode dec MAll cf n s a = Some (Some s') -> decoded_all cf s'.
Lemma decoded_cf_decoded : forall cf s, decoded_cf cf s -> decoded Ins ilen icls s.
Proof. intros cf s D. induction D; [constructor|econstructor; eassumption]. Qed.
Lemma decoded_all_cf : forall cf s, decoded_all cf s -> decoded_cf cf s.
Proof. intros cf s D. induction D; [constructor|econstructor; eassumption]. Qed.

Lemma edges_real : forall cf a d, (d_tgt _ d = negb (d_to d =? 0)) -> (d_fall _ d = follows cf (d_kind d)) -> edges Ins ilen icls a d = real1 cf a d.
Proof.
  intros cf a d T F. unfold edges, real1. rewrite T, F. f_equal.
  destruct (Z.eqb_spec (d_to d) a) as [->|]; [reflexivity|]. rewrite !andb_false_r. reflexivity.
Qed.
Lemma edges_le_real : forall cf a d, (d_tgt _ d = true -> d_to d <> 0) -> (d_fall _ d = true -> follows cf (d_kind d) = true) ->
  (edges Ins ilen icls a d <= real1 cf a d)%nat.
Proof.
  intros cf a d T F. unfold edges, real1.
  destruct (d_tgt _ d); destruct (d_fall _ d); cbn [andb]; rewrite ?(F eq_refl); cbn [andb];
  try specialize (T eq_refl); destruct (Z.eqb_spec (d_to d) a); destruct (Z.eqb_spec a 0); cbn [negb andb];
  try destruct (d_end d =? a); destruct (follows cf (d_kind d)); cbn [andb]; lia.
Qed.
Lemma preds_exact : forall cf s, decoded_all cf s -> forall a, e_preds (f_map _ s a) = real cf a s.
Proof.
  intros cf s D a. rewrite (v_cnt _ _ _ _ (decoded_inv Ins ilen icls s (decoded_cf_decoded cf s (decoded_all_cf cf s D)))).
  assert (F : Forall (fun d => d_tgt _ d = negb (d_to d =? 0) /\ d_fall _ d = follows cf (d_kind d)) (f_ins _ s)).
  { induction D as [|s dec n b s' _ IH X]; [constructor|].
    eapply decode_forall; [| |exact IH|exact X]; [intros d [Q1 Q2]; split; assumption|].
    intros i cur nb. unfold newd, Decode.d_to, Decode.d_kind. destruct (icls i) as [k t] eqn:IC. cbn [d_i d_tgt d_fall]. rewrite IC. cbn [fst snd].
    split; [reflexivity|apply falls_all]. }
  unfold count, real. induction F as [|d l [F1 F2] _ IH]; [reflexivity|]. cbn [map]. rewrite (edges_real cf a d F1 F2).
  change (list_sum (?x :: ?y)) with (x + list_sum y)%nat. rewrite IH. reflexivity.
Qed.
Lemma preds_le : forall cf s, decoded_cf cf s -> forall a, (e_preds (f_map _ s a) <= real cf a s)%nat.
Proof.
  intros cf s D a. rewrite (v_cnt _ _ _ _ (decoded_inv Ins ilen icls s (decoded_cf_decoded cf s D))).
  assert (F : Forall (fun d => (d_tgt _ d = true -> d_to d <> 0) /\ (d_fall _ d = true -> follows cf (d_kind d) = true)) (f_ins _ s)).
  { induction D as [|s dec m n b s' _ IH X]; [constructor|].
    eapply decode_forall; [| |exact IH|exact X]; [intros d [Q1 Q2]; split; assumption|].
    intros i cur nb. unfold newd, Decode.d_to, Decode.d_kind. destruct m; [split; cbn; discriminate| |];
    (destruct (icls i) as [k t] eqn:IC; cbn [d_i d_tgt d_fall]; rewrite IC; cbn [fst snd]; split; [destruct (Z.eqb_spec t 0); [discriminate|auto]|]);
    [unfold falls; destruct k; cbn; try discriminate; destruct cf; cbn; auto|rewrite falls_all; auto]. }
  unfold count, real. induction F as [|d l [F1 F2] _ IH]; [reflexivity|]. cbn [map]. pose proof (edges_le_real cf a d F1 F2) as X.
  change (list_sum (?x :: ?y)) with (x + list_sum y)%nat. change (list_sum (?x :: ?y)) with (x + list_sum y)%nat. lia.
Qed.
End Ok.
