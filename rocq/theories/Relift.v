(** Decoding and lifting mixed on one function object: /repo/src/function.cc:93-101 Lift
    changes the decoded state only by counting one more predecessor of the entry
    point. *)

From Coq Require Import ZArith Lia ZifyBool List Bool Arith.
From Verif Require Import Bits Facet IR Dsl Decode LiftFn.
Import ListNotations.
Open Scope Z_scope.

Section Relift.
Variable Ins : Type.
Variable ilen : Ins -> Z.
Variable icls : Ins -> kind * Z.
Notation dst := (dst Ins).

(** function.cc:97-101. *)
Definition lift_eff (s : dst) : dst :=
  match f_ins _ s with
  | [] => s
  | d :: _ => DS Ins (f_ins _ s) (inc_preds (f_map _ s) (d_start _ d)) (f_ranges _ s) (f_stack _ s) (f_cur _ s)
  end.
(** The states of a function object under any sequence of ll_func_decode_* and
    ll_func_lift calls (rellume.cc:134-173). *)
Inductive used : dst -> Prop :=
| used0 : used (dst0 Ins)
| used_dec : forall s dec m cf n a s', used s -> decode Ins ilen icls dec m cf n s a = Some (Some s') -> used s'
| used_lift : forall s, used s -> used (lift_eff s).

(** Equal up to the counts, which are at least as high. *)
Record same (s t : dst) : Prop := {
  sm_ins : f_ins _ s = f_ins _ t;
  sm_rng : f_ranges _ s = f_ranges _ t;
  sm_stk : f_stack _ s = f_stack _ t;
  sm_cur : f_cur _ s = f_cur _ t;
  sm_map : forall a, e_dec (f_map _ s a) = e_dec (f_map _ t a) /\ e_idx (f_map _ s a) = e_idx (f_map _ t a) /\ (e_preds (f_map _ s a) <= e_preds (f_map _ t a))%nat;
}.
Definition msame (m1 m2 : Z -> entry) : Prop := forall a, e_dec (m1 a) = e_dec (m2 a) /\ e_idx (m1 a) = e_idx (m2 a) /\ (e_preds (m1 a) <= e_preds (m2 a))%nat.
Lemma msame_inc : forall m1 m2 a, msame m1 m2 -> msame (inc_preds m1 a) (inc_preds m2 a).
Proof. intros m1 m2 a M b. unfold inc_preds, upd_map. destruct (a =? b); [|apply M]. cbn. destruct (M a) as (A & B & C). repeat split; [assumption..|lia]. Qed.
Lemma msame_inc2 : forall m1 m2 a, msame m1 m2 -> msame m1 (inc_preds m2 a).
Proof. intros m1 m2 a M b. unfold inc_preds, upd_map. destruct (Z.eqb_spec a b) as [<-|]; [|apply M]. cbn. destruct (M a) as (A & B & C). repeat split; [assumption..|lia]. Qed.
Lemma msame_upd : forall m1 m2 a b d i, msame m1 m2 -> msame (upd_map m1 a (Entry (e_preds (m1 b)) d i)) (upd_map m2 a (Entry (e_preds (m2 b)) d i)).
Proof. intros m1 m2 a b d i M x. unfold upd_map. destruct (a =? x); [|apply M]. cbn. destruct (M b) as (A & B & C). repeat split. assumption. Qed.

Definition osame (x y : outcome Ins) : Prop :=
  match x, y with Done _ s, Done _ t | Next _ s, Next _ t => same s t | Bad _, Bad _ => True | _, _ => False end.
Lemma step_same : forall dec m cf s t, same s t -> osame (step Ins ilen icls dec m cf s) (step Ins ilen icls dec m cf t).
Proof.
  intros dec m cf [i1 m1 r1 k1 c1] [i2 m2 r2 k2 c2] [E1 E2 E3 E4 M]. cbn in *. subst i2 r2 k2 c2. change (msame m1 m2) in M.
  unfold step. cbn [f_cur f_stack f_map f_ins f_ranges]. destruct c1 as [[[st cur] nb]|].
  - cbv zeta. destruct (M cur) as (A & B & _). rewrite <- A, <- B. destruct (e_dec (m1 cur)); [split; cbn; auto|].
    destruct (dec cur) as [i|]; [|split; cbn; auto].
    pose proof (msame_upd m1 m2 cur cur true (length i1) M) as MU. set (u1 := upd_map m1 _ _) in *. set (u2 := upd_map m2 _ _) in *.
    destruct m; [split; cbn; auto| |]; destruct (icls i) as [k t]; (destruct (negb (t =? 0) && reserved t); [exact I|]);
      destruct (MU t) as (A2 & B2 & _); rewrite <- A2, <- B2; pose proof (msame_inc u1 u2 t MU) as MI; destruct (t =? 0);
      match goal with |- context[if falls ?m ?c ?k then _ else _] => destruct (falls m c k) end;
      try (destruct (reserved (add64 cur (ilen i))); [exact I|]); unfold finish; cbn [osame];
      (split; cbn; [reflexivity..|]; first [exact MU|exact MI|apply (msame_inc _ _ _ MU)|apply (msame_inc _ _ _ MI)]).
  - destruct k1 as [|a stk]; [split; cbn; auto|]. destruct (reserved a); [exact I|]. split; cbn; auto.
Qed.
Lemma iter_same : forall dec m cf n s t t', same s t -> iter Ins ilen icls dec m cf n t = Some (Some t') ->
  exists s', iter Ins ilen icls dec m cf n s = Some (Some s') /\ same s' t'.
Proof.
  intros dec m cf. induction n as [|n IH]; intros s t t' M X; [discriminate X|]. cbn [iter] in *. pose proof (step_same dec m cf s t M) as O.
  destruct (step Ins ilen icls dec m cf t) as [t1|t1|], (step Ins ilen icls dec m cf s) as [s1|s1|]; try destruct O; try discriminate X.
  - injection X as <-. exists s1. split; [reflexivity|]. split; assumption.
  - eapply IH; [|exact X]. split; assumption.
Qed.
Lemma used_same : forall t, used t -> exists s, decoded Ins ilen icls s /\ same s t.
Proof.
  intros t U. induction U as [|t dec m cf n a t' _ (s & D & M) X|t _ (s & D & M)].
  - exists (dst0 Ins). split; [constructor|]. split; auto.
  - unfold decode in X. assert (M0 : same (DS Ins (f_ins _ s) (f_map _ s) (f_ranges _ s) [a] None) (DS Ins (f_ins _ t) (f_map _ t) (f_ranges _ t) [a] None)) by (destruct M; split; cbn; auto).
    destruct (iter_same dec m cf n _ _ t' M0 X) as (s' & X' & M').
    exists s'. split; [|exact M']. econstructor; [exact D|exact X'].
  - exists s. split; [exact D|]. unfold lift_eff. destruct (f_ins _ t) as [|d l] eqn:E; [exact M|]. destruct M as [M1 M2 M3 M4 M5]. split; cbn; try congruence.
    intro x. exact (msame_inc2 _ _ (d_start _ d) M5 x).
Qed.
Lemma resolve_same : forall s t, same s t -> forall a, resolve Ins s a = resolve Ins t a.
Proof. intros s t M a. unfold resolve. destruct (sm_map _ _ M a) as (-> & -> & _). rewrite (sm_ins _ _ M). reflexivity. Qed.
End Relift.
