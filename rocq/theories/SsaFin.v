(** What the stores and the PHI nodes of the finished function may mention
    (OptimizePacks and FillPhis only read registers). *)

From Coq Require Import ZArith Lia ZifyBool List Bool.
From Verif Require Import Bits IR Facet Dsl RegFile RegFileOk RegScript Layout Cfg CfgHeap SsaHeap.
Import ListNotations.
Open Scope Z_scope.

Section Fin.
Context `{FpuOps}.
Variable A : arch.
Variable is_undef : value -> bool.
Variable ini : nat -> rinit.
Variable P : nat -> atom -> Prop.
Hypothesis Hpar : forall k p a, ini k = InitParent p -> P p a -> P k a.
Hypothesis Hphi : forall k b r, ini k = InitPhi b -> P k (APhi b r).
Hypothesis Hload : forall k r t, P k (ASlot k r t).
Notation hin := (hin ini P).
Definition sin (ss : list store) : Prop := forall k r v, In (k, r, v) ss -> vin (P k) v.
Definition inn (file : nat -> option nat) (inc : list (nat * value)) : Prop := forall p v, In (p, v) inc -> exists k, file p = Some k /\ vin (P k) v.
Definition phin (file : nat -> option nat) (ps : list phi) : Prop := forall b r inc, In (b, r, inc) ps -> inn file inc.

Lemma pack_reg_in : forall fuel m p f rf f' ss, hin (f_h f) -> pack_reg A is_undef fuel m p f rf = Some (f', ss) -> hin (f_h f') /\ f_file f' = f_file f /\ sin ss.
Proof using Hpar Hphi Hload.
  intros fuel m p f [r fc] f' ss HI E. unfold pack_reg in E. destruct (Z.testbit _ _); [|injection E as <- <-; split; [exact HI|split; [reflexivity|intros ? ? ? []]]].
  destruct (hoist _ _ _ _ _ _) as [[b k]|]; [|discriminate]. destruct (get_reg A false (f_h f) k r fc) as [[h v]|] eqn:G; [|discriminate]. injection E as <- <-.
  destruct (get_reg_hin A ini P Hpar Hphi Hload _ _ _ _ _ _ _ HI G) as [HI' V]. split; [exact HI'|]. split; [reflexivity|].
  intros k' r' v' I0. destruct (is_undef v); [destruct I0|]. destruct I0 as [I0|[]]. injection I0 as <- <- <-. exact V.
Qed.
Lemma sin_app : forall a b, sin a -> sin b -> sin (a ++ b).
Proof. intros a b X Y k r v I0. apply in_app_or in I0. destruct I0; eauto. Qed.
Lemma pack_regs_in : forall fuel m p l f f' ss, hin (f_h f) -> pack_regs A is_undef fuel m p f l = Some (f', ss) -> hin (f_h f') /\ f_file f' = f_file f /\ sin ss.
Proof using Hpar Hphi Hload.
  intros fuel m p. induction l as [|rf l IH]; intros f f' ss HI E; cbn [pack_regs] in E.
  - injection E as <- <-. split; [exact HI|]. split; [reflexivity|intros ? ? ? []].
  - destruct (pack_reg A is_undef fuel m p f rf) as [[f1 s1]|] eqn:E1; [|discriminate]. destruct (pack_reg_in _ _ _ _ _ _ _ HI E1) as (H1 & F1 & S1).
    destruct (pack_regs A is_undef fuel m p f1 l) as [[f2 s2]|] eqn:E2; [|discriminate]. injection E as <- <-. destruct (IH _ _ _ H1 E2) as (H2 & F2 & S2).
    split; [exact H2|]. split; [congruence|]. apply sin_app; assumption.
Qed.
Lemma pack_all_in : forall fuel m l f f' ss, hin (f_h f) -> pack_all A is_undef fuel m f l = Some (f', ss) -> hin (f_h f') /\ f_file f' = f_file f /\ sin ss.
Proof using Hpar Hphi Hload.
  intros fuel m. induction l as [|p l IH]; intros f f' ss HI E; cbn [pack_all] in E.
  - injection E as <- <-. split; [exact HI|]. split; [reflexivity|intros ? ? ? []].
  - destruct (pack_regs A is_undef fuel m p f (reg_slots A)) as [[f1 s1]|] eqn:E1; [|discriminate]. destruct (pack_regs_in _ _ _ _ _ _ _ HI E1) as (H1 & F1 & S1).
    destruct (pack_all A is_undef fuel m f1 l) as [[f2 s2]|] eqn:E2; [|discriminate]. injection E as <- <-. destruct (IH _ _ _ H1 E2) as (H2 & F2 & S2).
    split; [exact H2|]. split; [congruence|]. apply sin_app; assumption.
Qed.
Lemma fill_incoming_in : forall r preds f f' inc, hin (f_h f) -> fill_incoming A f r preds = Some (f', inc) -> hin (f_h f') /\ f_file f' = f_file f /\ inn (f_file f) inc.
Proof using Hpar Hphi Hload.
  intros r. induction preds as [|p l IH]; intros f f' inc HI E; cbn [fill_incoming] in E.
  - injection E as <- <-. split; [exact HI|]. split; [reflexivity|intros ? ? []].
  - destruct (f_file f p) as [k|] eqn:FP; [|discriminate]. destruct (get_reg A false (f_h f) k r (native_facet A r)) as [[h v]|] eqn:G; [|discriminate].
    destruct (get_reg_hin A ini P Hpar Hphi Hload _ _ _ _ _ _ _ HI G) as [HI' V].
    destruct (fill_incoming A (with_h f h) r l) as [[f2 i2]|] eqn:E2; [|discriminate]. injection E as <- <-. destruct (IH (with_h f h) _ _ HI' E2) as (H2 & F2 & I2).
    split; [exact H2|]. split; [exact F2|]. intros p' v' [I0|I0]; [injection I0 as <- <-; eauto|exact (I2 _ _ I0)].
Qed.
Lemma fill_regs_in : forall b l f f' ps, hin (f_h f) -> fill_regs A f b l = Some (f', ps) -> hin (f_h f') /\ f_file f' = f_file f /\ phin (f_file f) ps.
Proof using Hpar Hphi Hload.
  intros b. induction l as [|r l IH]; intros f f' ps HI E; cbn [fill_regs] in E.
  - injection E as <- <-. split; [exact HI|]. split; [reflexivity|intros ? ? ? []].
  - destruct (fill_incoming A f r (f_preds f b)) as [[f1 inc]|] eqn:E1; [|discriminate]. destruct (fill_incoming_in _ _ _ _ _ HI E1) as (H1 & F1 & I1).
    destruct (Nat.eqb _ _); [|discriminate]. destruct (fill_regs A f1 b l) as [[f2 p2]|] eqn:E2; [|discriminate]. injection E as <- <-. destruct (IH _ _ _ H1 E2) as (H2 & F2 & I2).
    split; [exact H2|]. split; [congruence|]. rewrite F1 in I2. intros b' r' inc' [I0|I0]; [injection I0 as <- <- <-; exact I1|exact (I2 _ _ _ I0)].
Qed.
Lemma fill_phis_in : forall b f fl f' fl' ps x, hin (f_h f) -> fill_phis A f fl b = Some (f', fl', ps, x) -> hin (f_h f') /\ f_file f' = f_file f /\ phin (f_file f) ps.
Proof using Hpar Hphi Hload.
  intros b f fl f' fl' ps x HI E. unfold fill_phis in E. destruct (match f_max f b with Some m => _ | None => _ end); [|discriminate].
  destruct (fill_regs A f b _) as [[f1 p1]|] eqn:E1; [|discriminate]. injection E as <- <- <- <-. eapply fill_regs_in; eassumption.
Qed.
Lemma phin_app : forall file a b, phin file a -> phin file b -> phin file (a ++ b).
Proof. intros file a b X Y b' r inc I0. apply in_app_or in I0. destruct I0; eauto. Qed.
Lemma fill_round_in : forall ord f fl f' fl' ps x, hin (f_h f) -> fill_round A f fl ord = Some (f', fl', ps, x) -> hin (f_h f') /\ f_file f' = f_file f /\ phin (f_file f) ps.
Proof using Hpar Hphi Hload.
  induction ord as [|b l IH]; intros f fl f' fl' ps x HI E; cbn [fill_round] in E.
  - injection E as <- <- <- <-. split; [exact HI|]. split; [reflexivity|intros ? ? ? []].
  - destruct (fill_phis A f fl b) as [[[[f1 l1] p1] c1]|] eqn:E1; [|discriminate]. destruct (fill_phis_in _ _ _ _ _ _ _ HI E1) as (H1 & F1 & I1).
    destruct (fill_round A f1 l1 l) as [[[[f2 l2] p2] c2]|] eqn:E2; [|discriminate]. injection E as <- <- <- <-. destruct (IH _ _ _ _ _ _ H1 E2) as (H2 & F2 & I2).
    split; [exact H2|]. split; [congruence|]. rewrite F1 in I2. apply phin_app; assumption.
Qed.
Lemma fill_loop_in : forall fuel ord f fl f' ps, hin (f_h f) -> fill_loop A fuel f fl ord = Some (f', ps) -> hin (f_h f') /\ f_file f' = f_file f /\ phin (f_file f) ps.
Proof using Hpar Hphi Hload.
  induction fuel as [|fuel IH]; intros ord f fl f' ps HI E; cbn [fill_loop] in E; [discriminate|].
  destruct (fill_round A f fl ord) as [[[[f1 l1] p1] c1]|] eqn:E1; [|discriminate]. destruct (fill_round_in _ _ _ _ _ _ _ HI E1) as (H1 & F1 & I1). destruct c1.
  - destruct (fill_loop A fuel f1 l1 ord) as [[f2 p2]|] eqn:E2; [|discriminate]. injection E as <- <-. destruct (IH _ _ _ _ _ H1 E2) as (H2 & F2 & I2).
    split; [exact H2|]. split; [congruence|]. rewrite F1 in I2. apply phin_app; assumption.
  - injection E as <- <-. auto.
Qed.
Theorem finish_in : forall fuel f ord L, hin (f_h f) -> Cfg.finish A is_undef fuel f ord = Some L -> hin (f_h (l_fn L)) /\ sin (l_stores L) /\ phin (f_file f) (l_phis L).
Proof using Hpar Hphi Hload.
  intros fuel f ord L HI E. unfold Cfg.finish, optimize_packs in E. destruct (flow _ _ _ _ _) as [m|]; [|discriminate].
  destruct (pack_all A is_undef fuel m f (f_packs f)) as [[f1 ss]|] eqn:E1; [|discriminate]. destruct (pack_all_in _ _ _ _ _ _ HI E1) as (H1 & F1 & S1).
  destruct (fill_loop A fuel f1 _ ord) as [[f2 ps]|] eqn:E2; [|discriminate]. injection E as <-. destruct (fill_loop_in _ _ _ _ _ _ H1 E2) as (H2 & F2 & I2).
  cbn [l_fn l_stores l_phis]. rewrite F1 in I2. auto.
Qed.
End Fin.
