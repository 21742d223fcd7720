(** What the register files' values may mention, for any notion of "mention" that is
    inherited along chains of register files (/repo/src/regfile.cc:330-463 follows
    the same chains). *)

From Coq Require Import ZArith Lia ZifyBool List Bool.
From Verif Require Import Bits IR Facet Dsl RegFile RegFileOk RegScript Layout Cfg CfgHeap.
Import ListNotations.
Open Scope Z_scope.

Section Heap.
Context `{FpuOps}.
Variable A : arch.
Variable ini : nat -> rinit.
Variable P : nat -> atom -> Prop.
Hypothesis Hpar : forall k p a, ini k = InitParent p -> P p a -> P k a.
Hypothesis Hphi : forall k b r, ini k = InitPhi b -> P k (APhi b r).
Hypothesis Hload : forall k r t, P k (ASlot k r t).

Record hin (h : rfs) : Prop := {
  hi_ini : forall k, h_init h k = ini k;
  hi_in : forall k r, rin (P k) (h_reg h k r);
  hi_ld : forall k r u t, h_reg h k r = RLoad u t -> u = k;
}.
Lemma set_hin : forall h h' k r g, hin h -> h_init h' = h_init h -> h_reg h' = h_reg (set_reg h k r g) ->
  rin (P k) g -> (forall u t, g = RLoad u t -> u = k) -> hin h'.
Proof using.
  clear. intros h h' k r g HI EI ER RG LD. split.
  - intros k'. rewrite EI. apply HI.
  - intros k' r'. rewrite ER. cbn [set_reg h_reg]. destruct (keq_dec k r k' r') as [[<- <-]|Q]; [rewrite keq_refl; assumption|rewrite Q; apply HI].
  - intros k' r' u t. rewrite ER. cbn [set_reg h_reg]. destruct (keq_dec k r k' r') as [[<- <-]|Q]; [rewrite keq_refl; apply LD|rewrite Q; apply HI].
Qed.

Lemma canonicalize_hin : forall h k r h', hin h -> canonicalize h k r = Some h' -> hin h' /\ exists uz vs, h_reg h' k r = RVals uz vs.
Proof using Hload.
  intros h k r h' HI C. unfold canonicalize in C. destruct (h_reg h k r) as [tr v1 v2 v3|u t|uz vs] eqn:G.
  - destruct (canon_value r (RLazy tr v1 v2 v3)) as [[v s]|] eqn:CV; [|discriminate]. injection C as <-.
    pose proof (hi_in _ HI k r) as R. rewrite G in R. destruct R as (R1 & R2 & R3). split; [|cbn; rewrite keq_refl; eauto].
    eapply set_hin; [exact HI|reflexivity|reflexivity| |discriminate]. cbn [rin]. constructor; [|constructor]. split; [|exact I].
    cbn [p_a new_piece]. apply (canon_vin _ r tr v1 v2 v3 v s CV); assumption.
  - injection C as <-. pose proof (hi_ld _ HI _ _ _ _ G) as ->. split; [|cbn; rewrite keq_refl; eauto].
    eapply set_hin; [exact HI|reflexivity|reflexivity| |discriminate]. cbn [rin]. constructor; [|constructor]. split; [|exact I]. apply Hload.
  - injection C as <-. eauto.
Qed.
Lemma get_fold_hin : forall fuel h k r full h' i, hin h -> get_fold A fuel h k r full = Some (h', i) -> hin h'.
Proof using Hpar Hphi Hload.
  induction fuel as [|fuel IH]; intros h k r full h' i HI GF; [discriminate|]. cbn [get_fold] in GF.
  destruct (canonicalize h k r) as [h1|] eqn:CE; [|discriminate].
  destruct (canonicalize_hin _ _ _ _ HI CE) as (HI1 & uz & vs & G1). rewrite G1 in GF.
  match type of GF with (match ?c with Some x => _ | None => None end) = _ => destruct c as [h2|] eqn:C2; [|discriminate] end.
  assert (HI2 : hin h2).
  { destruct (negb uz && match vs with [] => true | p :: _ => p_size p <? full end); [|injection C2 as <-; assumption].
    pose proof (hi_in _ HI1 k r) as R1. rewrite G1 in R1. cbn [rin] in R1.
    destruct (h_init h1 k) as [|p|b] eqn:IN; [discriminate| |]; rewrite (hi_ini _ HI1) in IN.
    - destruct (get_fold A fuel h1 p r (native_size A r)) as [[h3 j]|] eqn:GP; [|discriminate].
      pose proof (IH _ _ _ _ _ _ HI1 GP) as HI3. destruct (h_reg h3 p r) as [| |uz' vs'] eqn:G3; try discriminate. injection C2 as <-.
      eapply set_hin; [exact HI3|reflexivity|reflexivity| |discriminate]. cbn [rin].
      assert (F1 : Forall (pin (P k)) vs').
      { pose proof (hi_in _ HI3 p r) as R. rewrite G3 in R. cbn [rin] in R. eapply Forall_impl; [|exact R]. intros q. apply pin_mono. intros a. apply Hpar. assumption. }
      destruct vs as [|q vs]; [assumption|]. apply Forall_app. split; [apply take_ge_in; assumption|assumption].
    - injection C2 as <-. eapply set_hin; [exact HI1|reflexivity|reflexivity| |discriminate]. cbn [rin]. constructor; [|assumption].
      split; [|exact I]. apply Hphi. assumption. }
  destruct (h_reg h2 k r) as [| |uz2 vs2] eqn:G2; try discriminate. destruct vs2 as [|p0 vs2].
  - destruct uz2; [|discriminate]. injection GF as <- <-. eapply set_hin; [exact HI2|reflexivity|reflexivity| |discriminate].
    cbn [rin]. constructor; [|constructor]. split; exact I.
  - destruct (uz2 && negb (p_dirty p0)); [discriminate|].
    destruct (fold_idx (p0 :: vs2) full 0 0) as [j|]; [injection GF as <- <-; auto|].
    destruct (fold_values (p0 :: vs2) full) as [vs'|] eqn:FV; [|discriminate]. injection GF as <- <-.
    pose proof (hi_in _ HI2 k r) as R. rewrite G2 in R. cbn [rin] in R.
    eapply set_hin; [exact HI2|reflexivity|reflexivity| |discriminate]. cbn [rin]. eapply fold_values_vin; eassumption.
Qed.
Lemma get_reg_hin : forall c h k r f h' v, hin h -> get_reg A c h k r f = Some (h', v) -> hin h' /\ vin (P k) v.
Proof using Hpar Hphi Hload.
  intros c h k r f h' v HI G. unfold get_reg in G. set (fs := match f with I8H => 16 | _ => facet_size f end) in *.
  destruct (get_fold A (S k) h k r fs) as [[h1 i]|] eqn:GF; [|discriminate].
  pose proof (get_fold_hin _ _ _ _ _ _ _ HI GF) as HI1.
  destruct (h_reg h1 k r) as [| |uz vs] eqn:G1; try discriminate. destruct (nth_error vs i) as [p|] eqn:N; [|discriminate].
  pose proof (hi_in _ HI1 k r) as R. rewrite G1 in R. cbn [rin] in R. pose proof (nth_in _ _ _ _ _ R N) as [PA PB].
  assert (SET : forall vs', Forall (pin (P k)) vs' -> hin (set_reg h1 k r (RVals uz vs'))).
  { intros vs' F. eapply set_hin; [exact HI1|reflexivity|reflexivity|exact F|discriminate]. }
  destruct (negb (facet_eqb f I8H) && (p_size p =? fs)).
  - destruct (ty_eqb (v_ty (p_a p)) (facet_type f)); [injection G as <- <-; auto|].
    assert (CAST : (opt v <- mk_cast CBitOrPtr (facet_type f) (p_a p);
                  Some (set_reg h1 k r (RVals uz (list_set vs i (Piece v (Some (p_a p)) (p_size p) (p_dirty p)))), v)) = Some (h', v) ->
                  hin h' /\ vin (P k) v).
    { clear G. intros G. destruct (mk_cast CBitOrPtr (facet_type f) (p_a p)) as [w|] eqn:M; [|discriminate]. injection G as <- <-.
      pose proof (mk_cast_vin _ _ _ _ _ M PA) as PW. split; [|assumption]. apply SET. apply list_set_in; [assumption|]. split; assumption. }
    destruct (p_b p) as [vb|]; [|exact (CAST G)]. destruct (ty_eqb (v_ty vb) (facet_type f)); [|exact (CAST G)].
    injection G as <- <-. auto.
  - destruct (convert f (p_a p) (p_size p)) as [w|] eqn:CV; [|discriminate]. pose proof (convert_vin _ _ _ _ _ CV PA) as PW.
    destruct (facet_eqb f I8H); [injection G as <- <-; auto|]. destruct c; [|injection G as <- <-; auto].
    match type of G with (if ?b then _ else _) = _ => destruct b; [|discriminate] end. injection G as <- <-.
    split; [|assumption]. apply SET. apply list_ins_in; [assumption|]. split; [assumption|exact I].
Qed.
(** Register accesses of the lifters. *)
Lemma rop_hin : forall n h k w n' h' x, hin h -> Forall (vin (P k)) (wvals w) -> exec1 A (n, h) (to_rop k w) = Some (n', h', x) ->
  n' = n /\ hin h' /\ forall v, x = Some v -> vin (P k) v.
Proof using Hpar Hphi Hload.
  intros n h k w n' h' x HI F E. destruct w as [r v|r v|r tr v1 v2 v3|g r f]; cbn [to_rop exec1 wvals] in *.
  - injection E as <- <- <-. split; [reflexivity|]. split; [|discriminate]. inversion F; subst.
    eapply set_hin; [exact HI|reflexivity|reflexivity| |discriminate]. cbn [rin]. constructor; [|constructor]. split; [assumption|exact I].
  - destruct (merge h k r v) as [h1|] eqn:M; [|discriminate]. injection E as <- <- <-. split; [reflexivity|]. split; [|discriminate]. inversion F; subst.
    unfold merge in M. destruct (canonicalize h k r) as [h2|] eqn:CE; [|discriminate].
    destruct (canonicalize_hin _ _ _ _ HI CE) as (HI2 & uz & vs & G2). rewrite G2 in M. injection M as <-.
    pose proof (hi_in _ HI2 k r) as R. rewrite G2 in R. cbn [rin] in R.
    eapply set_hin; [exact HI2|reflexivity|reflexivity| |discriminate]. cbn [rin]. apply Forall_app. split; [apply take_gt_in; assumption|].
    constructor; [|constructor]. split; [assumption|exact I].
  - injection E as <- <- <-. split; [reflexivity|]. split; [|discriminate]. inversion F as [|? ? F1 F2]; subst. inversion F2 as [|? ? F3 F4]; subst. inversion F4; subst.
    eapply set_hin; [exact HI|reflexivity|reflexivity| |discriminate]. cbn [rin]. auto.
  - destruct (get_reg A g h k r f) as [[h1 v]|] eqn:G; [|discriminate]. injection E as <- <- <-. split; [reflexivity|].
    destruct (get_reg_hin _ _ _ _ _ _ _ HI G) as [X Y]. split; [assumption|]. intros w Q. injection Q as <-. assumption.
Qed.
(** Loads pending. *)
Lemma load_hin : forall h k r t, hin h -> hin (set_load h k r k t).
Proof using.
  clear. intros h k r t HI. eapply set_hin; [exact HI|reflexivity|reflexivity|exact I|]. intros u t' Q. injection Q as <- _. reflexivity.
Qed.
End Heap.

Lemma hin_mono : forall ini (P Q : nat -> atom -> Prop) h, (forall k a, P k a -> Q k a) -> hin ini P h -> hin ini Q h.
Proof. intros ini P Q h I0 HI. split; try apply HI. intros k r. eapply rin_mono; [apply I0|]. apply HI. Qed.
