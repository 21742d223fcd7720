(** Proof infrastructure for the AArch64 lifter: relation between the model's
    register-map state and the guest state of A64Spec.v, and triples for its code. *)

From Coq Require Import ZArith Lia ZifyBool List Bool.
From Verif Require Import Bits IR Facet Dsl Rv64Spec Rv64Sim Rv64Arith X86Spec X86Arith A64 A64Spec A64Arith.
Import ListNotations.
Open Scope Z_scope.
Ltac Zify.zify_post_hook ::= Z.div_mod_to_equations.

Definition kcell (f : kflag) : areg := match f with fN => SF | fZ => ZF | fC => CF | fV => OF end.
Record krel (s : st) (g : kst) : Prop := KRel {
  kr_x : forall n, 0 <= n < 31 -> s_reg s (GP n) = Some (k_x g n);
  kr_xr : forall n, 0 <= n < 31 -> inr 64 (k_x g n);
  kr_sp : s_reg s A64_SP = Some (k_sp g);
  kr_spr : inr 64 (k_sp g);
  kr_f : forall f b, k_f g f = Some b -> s_reg s (kcell f) = Some (b2z b);
  kr_q : forall n, 0 <= n < 32 -> s_reg s (VEC n) = Some (k_q g n);
  kr_qr : forall n, 0 <= n < 32 -> inr 128 (k_q g n);
  kr_tp : s_reg s TPIDR = Some (k_tp g);
  kr_tpr : inr 64 (k_tp g);
  kr_m : forall x, s_mem s x = k_m g x;
}.
(** Register operands the decoder produces. *)
Definition okx (r : xr) : bool := match r with RX n => (0 <=? n) && (n <? 31) | _ => true end.
Definition okq (n : Z) : bool := (0 <=? n) && (n <? 32).

(** Same state, possibly with fewer specified flags. *)
Definition kle (g g' : kst) : Prop :=
  (forall n, 0 <= n < 31 -> k_x g n = k_x g' n) /\ k_sp g = k_sp g' /\
  (forall f b, k_f g' f = Some b -> k_f g f = Some b) /\
  (forall n, 0 <= n < 32 -> k_q g n = k_q g' n) /\ k_tp g = k_tp g' /\ (forall x, k_m g x = k_m g' x).
Lemma kle_refl : forall g, kle g g.
Proof. intros. repeat split; auto. Qed.
Lemma krel_kle : forall s g g', krel s g -> kle g g' -> krel s g'.
Proof.
  intros s g g' [A B C D E F I J L M] (G1 & G2 & G3 & G4 & G5 & G6).
  split; intros; auto; try congruence; try (rewrite <- G1 by assumption; auto); try (rewrite <- G4 by assumption; auto).
Qed.

Definition setf (g : kst) (f : kflag) (b : bool) : kst :=
  wrf g (fun x => if kflag_eqb x f then Some b else k_f g x).

Lemma bits_pos : forall w32, 0 < bits w32 <= 64.
Proof. intros []; cbn; lia. Qed.
Lemma bits_cases : forall w32, bits w32 = 32 \/ bits w32 = 64.
Proof. intros []; auto. Qed.
Lemma rdx_inr : forall g r w, 0 <= w -> inr w (rdx g r w).
Proof. intros. apply trunc_range. assumption. Qed.

Section Sim.
Context `{FpuOps}.
Variable c : cenv.
Hypothesis HA : c_arch c = AArch64.

Lemma nat_gp : forall n, native_size (c_arch c) (GP n) = 64. Proof. reflexivity. Qed.
Lemma nat_vec : forall n, native_size (c_arch c) (VEC n) = 128. Proof. intros. rewrite HA. reflexivity. Qed.
Lemma nat_flag : forall f, native_size (c_arch c) (kcell f) = 1. Proof. intros []; reflexivity. Qed.

(** ** Leaves *)
Lemma krel_reg : forall s g n, krel s g -> 0 <= n < 31 -> s_reg s (GP n) = Some (k_x g n).
Proof. intros. apply kr_x; assumption. Qed.
Lemma val_rx : forall s g r w32, krel s g -> okx r = true -> val c s (GetGp r w32) (bits w32) (rdx g r (bits w32)).
Proof.
  intros s g r w32 R O. unfold val, ev, rdx, GetGp. destruct r as [n| |].
  - unfold rG. cbn [eval leaf_val]. rewrite (kr_x _ _ R n) by (unfold okx in O; lia). destruct w32; reflexivity.
  - destruct w32; reflexivity.
  - unfold rG. cbn [eval leaf_val]. rewrite (kr_sp _ _ R). destruct w32; reflexivity.
Qed.
Lemma ev_rptr : forall s g r, krel s g -> okx r = true -> r <> RZR -> ev c s (GetPtr r) = Ok (V TPtr (rdx g r 64)).
Proof.
  intros s g r R O NZ. unfold ev, rdx, GetPtr. destruct r as [n| |]; [|contradiction|].
  - unfold rG. cbn [eval leaf_val]. rewrite (kr_x _ _ R n) by (unfold okx in O; lia). reflexivity.
  - unfold rG. cbn [eval leaf_val]. rewrite (kr_sp _ _ R). reflexivity.
Qed.
Lemma val_fl : forall s g f, krel s g -> k_f g f <> None -> val c s (GetFlag (kcell f)) 1 (b2z (fl g f)).
Proof.
  intros s g f R N. unfold val, ev, GetFlag, rG, fl. cbn [eval leaf_val]. destruct (k_f g f) as [b|] eqn:E; [|contradiction].
  rewrite (kr_f _ _ R f b E). destruct b; reflexivity.
Qed.
Lemma val_not1 : forall s e b, val c s e 1 (b2z b) -> val c s (eNot 1 e) 1 (b2z (negb b)).
Proof. intros s e b E. eapply val_bin; [exact E|apply val_cI|]. destruct b; reflexivity. Qed.
Lemma val_notw : forall s e w z, 0 <= w -> inr w z -> val c s e w z -> val c s (eNot w e) w (knot w z).
Proof. intros s e w z W Z0 E. eapply val_bin; [exact E|apply val_cI|]. cbn [ibin]. f_equal. apply knot_ok; assumption. Qed.
Lemma val_and1 : forall s a b x y, val c s a 1 (b2z x) -> val c s b 1 (b2z y) -> val c s (eAnd a b) 1 (b2z (x && y)).
Proof. intros s a b x y A B. eapply val_bin; [exact A|exact B|]. destruct x, y; reflexivity. Qed.
Lemma val_eq1 : forall s a b x y, val c s a 1 (b2z x) -> val c s b 1 (b2z y) -> val c s (eCmp EQ a b) 1 (b2z (Bool.eqb x y)).
Proof. intros s a b x y A B. pose proof (val_cmp c s EQ a b 1 _ _ A B) as E. destruct x, y; exact E. Qed.

(** IsTrue computes ConditionHolds. *)
Lemma val_IsTrue : forall s g k, krel s g -> 0 <= k < 16 -> (forall f, In f (cond_flags k) -> k_f g f <> None) ->
  exists e, IsTrue k = Some e /\ val c s e 1 (b2z (cond_holds k g)).
Proof.
  intros s g k R Kr N.
  assert (FN : In fN (cond_flags k) -> val c s (GetFlag SF) 1 (b2z (fl g fN))) by (intro I; exact (val_fl s g fN R (N _ I))).
  assert (FZ : In fZ (cond_flags k) -> val c s (GetFlag ZF) 1 (b2z (fl g fZ))) by (intro I; exact (val_fl s g fZ R (N _ I))).
  assert (FC : In fC (cond_flags k) -> val c s (GetFlag CF) 1 (b2z (fl g fC))) by (intro I; exact (val_fl s g fC R (N _ I))).
  assert (FV : In fV (cond_flags k) -> val c s (GetFlag OF) 1 (b2z (fl g fV))) by (intro I; exact (val_fl s g fV R (N _ I))).
  clear N.
  assert (C : k = 0 \/ k = 1 \/ k = 2 \/ k = 3 \/ k = 4 \/ k = 5 \/ k = 6 \/ k = 7 \/ k = 8 \/ k = 9 \/ k = 10 \/ k = 11 \/ k = 12 \/ k = 13 \/ k = 14 \/ k = 15) by lia.
  repeat (destruct C as [->|C]); [..|subst k]; cbn in FN, FZ, FC, FV; eexists; (split; [reflexivity|]);
  unfold cond_holds; cbn -[fl b2z val GetFlag eNot]; try (apply val_not1).
  all: try (first [apply FZ|apply FC|apply FN|apply FV]; solve [intuition]).
  all: try (apply val_and1; [apply FC; solve [intuition]|apply val_not1; apply FZ; solve [intuition]]).
  all: try (apply val_eq1; [apply FN; solve [intuition]|apply FV; solve [intuition]]).
  all: try (rewrite andb_comm; apply val_and1; [apply val_not1; apply FZ; solve [intuition]|apply val_eq1; [apply FN; solve [intuition]|apply FV; solve [intuition]]]).
  all: reflexivity.
Qed.

(** ** Triples *)
Definition kAt (g : kst) (p : pcreg) (vs : nat -> option rv) (rt : bool) (s : st) : Prop :=
  krel s g /\ s_pc s = p /\ (forall x v, vs x = Some v -> s_var s x = Some v) /\ s_ret s = rt.
Definition K (g : kst) (p : pcreg) (vs : nat -> option rv) (rt : bool) (l : list stm) (Q : st -> Prop) : Prop :=
  forall s, kAt g p vs rt s -> exists s', run c s l = Ok s' /\ Q s'.
Definition kvals (g : kst) (p : pcreg) (vs : nat -> option rv) (e : dexp) (v : rv) : Prop :=
  forall s rt, kAt g p vs rt s -> ev c s e = Ok v.
Definition kv (g : kst) (p : pcreg) (vs : nat -> option rv) (e : dexp) (w z : Z) : Prop :=
  forall s rt, kAt g p vs rt s -> val c s e w z.
Lemma kv_vals : forall g p vs e w z, kv g p vs e w z -> kvals g p vs e (V (TInt w) z).
Proof. intros g p vs e w z E s rt A. exact (E s rt A). Qed.
Lemma kv_var : forall g p vs x w z, vs x = Some (V (TInt w) z) -> kv g p vs (vX x) w z.
Proof. intros g p vs x w z E s rt (R & P & VS & RT). apply val_var. apply VS. assumption. Qed.
Lemma kv_gp : forall g p vs r w32, okx r = true -> kv g p vs (GetGp r w32) (bits w32) (rdx g r (bits w32)).
Proof. intros g p vs r w32 O s rt (R & _). apply val_rx; assumption. Qed.
Lemma kv_cI : forall g p vs w z, kv g p vs (cI w z) w (trunc w z).
Proof. intros g p vs w z s rt _. apply val_cI. Qed.
Lemma kv_bin : forall g p vs op a b w x y z, kv g p vs a w x -> kv g p vs b w y -> ibin op w x y = IV z -> kv g p vs (eBin op a b) w z.
Proof. intros g p vs op a b w x y z A B I s rt R. eapply val_bin; eauto. Qed.
Lemma kv_cmp : forall g p vs k a b w x y, kv g p vs a w x -> kv g p vs b w y -> kv g p vs (eCmp k a b) 1 (b2z (icmp_sem k w x y)).
Proof. intros g p vs k a b w x y A B s rt R. eapply val_cmp; eauto. Qed.
Lemma kv_sel : forall g p vs k a b w q x y, kv g p vs k 1 (b2z q) -> kv g p vs a w x -> kv g p vs b w y ->
  kv g p vs (eSel k a b) w (if q then x else y).
Proof.
  intros g p vs k a b w q x y E A B s rt R. pose proof (val_sel c s k a b w _ _ _ (E s rt R) (A s rt R) (B s rt R)) as S.
  destruct q; exact S.
Qed.
Lemma kv_flag : forall g p vs f, k_f g f <> None -> kv g p vs (GetFlag (kcell f)) 1 (b2z (fl g f)).
Proof. intros g p vs f N s rt (R & _). apply val_fl; assumption. Qed.
Lemma kv_not1 : forall g p vs e b, kv g p vs e 1 (b2z b) -> kv g p vs (eNot 1 e) 1 (b2z (negb b)).
Proof. intros g p vs e b E s rt R. apply val_not1. eauto. Qed.
Lemma kv_notw : forall g p vs e w z, 0 <= w -> inr w z -> kv g p vs e w z -> kv g p vs (eNot w e) w (knot w z).
Proof. intros g p vs e w z W Z0 E s rt R. apply val_notw; eauto. Qed.
Lemma kv_zext : forall g p vs a w w' x, kv g p vs a w x -> w <= w' -> kv g p vs (eZExt w' a) w' x.
Proof. intros g p vs a w w' x A L s rt R. eapply val_zext; eauto. Qed.
Lemma kv_sext : forall g p vs a w w' x, kv g p vs a w x -> 0 < w <= w' -> inr w x -> kv g p vs (eSExt w' a) w' (sext w w' x).
Proof. intros g p vs a w w' x A L I s rt R. eapply val_sext; eauto. Qed.
Lemma kv_trunc : forall g p vs a w w' x, kv g p vs a w x -> 0 <= w' <= w -> inr w x -> kv g p vs (eTrunc w' a) w' (trunc w' x).
Proof. intros g p vs a w w' x A L I s rt R. eapply val_trunc; eauto. Qed.
Lemma kv_intr1 : forall g p vs i a w x z, kv g p vs a w x -> intr1_sem i w x = IV z -> kv g p vs (E1 (OIntr1 i) a) w z.
Proof. intros g p vs i a w x z A I s rt R. eapply val_intr1; eauto. Qed.
Lemma kv_fsh : forall g p vs l a b k w x y z, kv g p vs a w x -> kv g p vs b w y -> kv g p vs k w z ->
  kv g p vs (E3 (OFsh l) a b k) w (fsh_sem l w x y z).
Proof. intros g p vs l a b k w x y z A B C s rt R. eapply val_fsh; eauto. Qed.
Lemma kv_pc : forall g a vs off, kv g (PcConst a) vs (ELeaf (DPc off)) 64 (addr_pc_base c (a + off)).
Proof. intros g a vs off s rt (R & P & _). apply val_pc. assumption. Qed.
Lemma kv_eq : forall g p vs e w z z', z = z' -> kv g p vs e w z -> kv g p vs e w z'.
Proof. intros. subst. assumption. Qed.

Lemma K_weaken : forall g g' p vs rt l Q, kle g g' -> K g' p vs rt l Q -> K g p vs rt l Q.
Proof. intros g g' p vs rt l Q L T s (R & P & VS & RT). apply T. split; [eapply krel_kle; eassumption|auto]. Qed.
Lemma K_app : forall l1 l2 g p vs rt Q,
  K g p vs rt l1 (fun s' => exists s'', run c s' l2 = Ok s'' /\ Q s'') -> K g p vs rt (l1 ++ l2) Q.
Proof.
  intros l1 l2 g p vs rt Q T s A. destruct (T s A) as (s1 & E1 & s2 & E2 & Q2). exists s2. split; [|exact Q2].
  rewrite run_app, E1. exact E2.
Qed.
Lemma krel_var : forall s g v, krel s g -> krel (with_var s v) g.
Proof. intros s g v [A B C D E F I J L M]. split; assumption. Qed.
Lemma krel_mem : forall s g m m', krel s g -> (forall x, m x = m' x) -> krel (with_mem s m) (wrm g m').
Proof. intros s g m m' [A B C D E F I J L M] Q. split; assumption. Qed.
Lemma krel_pc : forall s g p, krel s g -> krel (with_pc s p) g.
Proof. intros s g p [A B C D E F I J L M]. split; assumption. Qed.
Lemma krel_wrpc : forall s g a, krel s g -> krel s (wrpc g a).
Proof. intros s g a [A B C D E F I J L M]. split; assumption. Qed.

Lemma K_let : forall g p vs rt x e v l Q, kvals g p vs e v -> K g p (upd_var vs x v) rt l Q -> K g p vs rt (SLet x e :: l) Q.
Proof.
  intros g p vs rt x e v l Q E T s A. rewrite (run_let c s x e v l (E s rt A)).
  destruct A as (R & P & VS & RT). apply T. split; [apply krel_var; assumption|]. split; [assumption|]. split; [|assumption].
  intros y u. cbn [with_var s_var]. unfold upd_var. destruct (Nat.eqb x y); auto.
Qed.
Lemma K_load : forall g p vs rt x t e a l Q, kvals g p vs e (V TPtr a) ->
  K g p (upd_var vs x (V t (rd_mem (k_m g) a (Z.to_nat (tsize t / 8))))) rt l Q ->
  K g p vs rt (SLoad x t e :: l) Q.
Proof.
  intros g p vs rt x t e a l Q E T s A. cbn [run run1]. rewrite (E s rt A). cbn [bind load_rv]. rewrite load_rd.
  destruct A as (R & P & VS & RT). rewrite (rd_mem_ext _ _ _ a (kr_m _ _ R)). apply T. split; [apply krel_var; assumption|].
  split; [assumption|]. split; [|assumption]. intros y u. cbn [with_var s_var]. unfold upd_var. destruct (Nat.eqb x y); auto.
Qed.
Lemma K_store : forall g p vs rt e t z v ea a l Q, kvals g p vs e (V t z) -> kvals g p vs ea (V TPtr a) ->
  (Z.to_nat (tsize t / 8) <= 64)%nat -> (forall k, 0 <= k < Z.of_nat (Z.to_nat (tsize t / 8)) -> (z / 256^k) mod 256 = (v / 256^k) mod 256) ->
  K (wrm g (wr_mem (k_m g) a (Z.to_nat (tsize t / 8)) v)) p vs rt l Q -> K g p vs rt (SStore e ea :: l) Q.
Proof.
  intros g p vs rt e t z v ea a l Q E EA N B T s A. cbn [run run1]. rewrite (E s rt A), (EA s rt A). cbn [bind store_rv].
  destruct A as (R & P & VS & RT). apply T. split; [|auto]. apply krel_mem; [assumption|].
  intros x. unfold nbytes. rewrite store_wr by assumption. apply wr_mem_ext; [apply R|assumption].
Qed.

(** Register writes. *)
Lemma krel_wrx : forall s g r v, krel s g -> okx r = true -> r <> RZR -> inr 64 v ->
  krel (with_reg s (upd_reg (s_reg s) (match r with RX n => GP n | _ => A64_SP end) (Some v))) (wrx g r 64 v).
Proof.
  intros s g r v [A B C D E F I J L M] O NZ Vr. unfold TPIDR, A64_SP in *.
  destruct r as [n| |]; [|contradiction|]; cbn [wrx]; change U with trunc; rewrite (trunc_small 64 v) by assumption;
  split; cbn [k_x k_sp k_f k_q k_tp k_m with_reg s_reg s_mem]; unfold upd_reg, A64_SP, TPIDR in *; intros; cbn [areg_eqb];
  unfold okx in O; auto.
  - rewrite (Z.eqb_sym n0 n). destruct (n =? n0); auto.
  - destruct (n0 =? n); auto.
  - destruct (Z.eqb_spec n 31); [lia|assumption].
  - destruct f; cbn [areg_eqb kcell]; apply (E _ _ H0).
  - destruct (Z.eqb_spec n 256); [lia|assumption].
  - destruct (Z.eqb_spec 31 n); [lia|auto].
  - destruct f; cbn [areg_eqb kcell]; apply (E _ _ H0).
Qed.
Lemma K_setgp : forall g p vs rt r e w z v l Q, kv g p vs e w z -> 0 < w <= 64 -> inr w z -> okx r = true -> vs 63%nat = None ->
  z = U w v ->
  K (wrx g r w v) p vs rt l Q -> K g p vs rt (SetGp r e ++ l) Q.
Proof.
  intros g p vs rt r e w z v l Q E W Zr O N ZV T s A. pose proof (E s rt A) as EV. unfold val in EV. destruct A as (R & P & VS & RT).
  destruct (match r with RZR => true | _ => false end) eqn:RZ.
  - destruct r; try discriminate RZ. cbn [SetGp app]. cbn [run run1]. rewrite EV. cbn [bind]. apply T.
    split; [apply krel_var; assumption|]. split; [assumption|]. split; [|assumption].
    intros y u. cbn [with_var s_var]. unfold upd_var. intro X. destruct (Nat.eqb 63 y) eqn:Q1; [apply Nat.eqb_eq in Q1; subst y; congruence|auto].
  - assert (NZ : r <> RZR) by (intro; subst; discriminate RZ).
    assert (Z64 : inr 64 z) by (apply (inr_le w); [lia|assumption]).
    pose proof (krel_wrx s g r z R O NZ Z64) as RW.
    assert (WE : wrx g r 64 z = wrx g r w v).
    { destruct r; [|contradiction|]; cbn [wrx]; change (U 64 z) with (trunc 64 z); rewrite (trunc_small 64 z Z64), ZV; reflexivity. }
    rewrite WE in RW.
    assert (RUN : run c s (SetGp r e ++ l) = run c (with_reg s (upd_reg (s_reg s) (match r with RX n => GP n | _ => A64_SP end) (Some z))) l).
    { destruct r; [|discriminate RZ|]; cbn [SetGp app run run1]; rewrite EV; cbn [bind set_cell];
      unfold A64_SP; rewrite nat_gp, (trunc_small 64 z Z64); reflexivity. }
    rewrite RUN. apply T. split; [exact RW|auto].
Qed.
Lemma krel_wrq : forall s g n v, krel s g -> okq n = true -> inr 128 v ->
  krel (with_reg s (upd_reg (s_reg s) (VEC n) (Some v))) (wrq g n v).
Proof.
  intros s g n v [A B C D E F I J L M] O Vr.
  split; cbn [wrq k_x k_sp k_f k_q k_tp k_m with_reg s_reg s_mem]; unfold upd_reg; intros; unfold A64_SP, TPIDR in *; cbn [areg_eqb]; auto.
  - destruct f; cbn [areg_eqb kcell]; apply (E _ _ H0).
  - rewrite (Z.eqb_sym n0 n). destruct (n =? n0); auto.
  - destruct (n0 =? n); auto.
Qed.
Lemma K_setq : forall g p vs rt n e t v l Q, kvals g p vs e (V t v) -> okq n = true -> inr 128 v ->
  K (wrq g n v) p vs rt l Q -> K g p vs rt (SSet (VEC n) e :: l) Q.
Proof.
  intros g p vs rt n e t v l Q E O Vr T s A. pose proof (E s rt A) as EV. destruct A as (R & P & VS & RT). cbn [run run1]. rewrite EV. cbn [bind set_cell].
  rewrite nat_vec, (trunc_small 128 v Vr). apply T. split; [apply krel_wrq; assumption|auto].
Qed.
Lemma krel_setf : forall s g f b, krel s g -> krel (with_reg s (upd_reg (s_reg s) (kcell f) (Some (b2z b)))) (setf g f b).
Proof.
  intros s g f b [A B C D E F I J L M].
  split; cbn [setf wrf k_x k_sp k_f k_q k_tp k_m with_reg s_reg s_mem]; unfold upd_reg; auto.
  - intros n N. destruct f; cbn [areg_eqb kcell]; apply A; assumption.
  - destruct f; exact C.
  - intros f' b' Q. destruct f, f'; cbn [kflag_eqb kcell areg_eqb] in *; cbn; try (injection Q as <-; reflexivity); apply (E _ _ Q).
  - intros n N. destruct f; cbn [areg_eqb kcell]; apply F; assumption.
  - destruct f; exact J.
Qed.
Lemma K_setflag : forall g p vs rt f e b l Q, kv g p vs e 1 (b2z b) -> K (setf g f b) p vs rt l Q -> K g p vs rt (SSet (kcell f) e :: l) Q.
Proof.
  intros g p vs rt f e b l Q E T s A. pose proof (E s rt A) as EV. unfold val in EV. destruct A as (R & P & VS & RT).
  cbn [run run1]. rewrite EV. cbn [bind set_cell]. rewrite nat_flag. replace (trunc 1 (b2z b)) with (b2z b) by (destruct b; reflexivity).
  apply T. split; [apply krel_setf; assumption|auto].
Qed.
Lemma K_setflagT : forall g p vs rt f tr t v1 v2 v3 b l Q, kv g p vs (transform_exp tr t v1 v2 v3) 1 (b2z b) ->
  K (setf g f b) p vs rt l Q -> K g p vs rt (SSetT (kcell f) tr t v1 v2 v3 :: l) Q.
Proof.
  intros g p vs rt f tr t v1 v2 v3 b l Q E T s A. pose proof (E s rt A) as EV. unfold val in EV. destruct A as (R & P & VS & RT).
  cbn [run run1]. rewrite EV. cbn [bind set_cell]. rewrite nat_flag. replace (trunc 1 (b2z b)) with (b2z b) by (destruct b; reflexivity).
  apply T. split; [apply krel_setf; assumption|auto].
Qed.
Lemma K_pc : forall g p vs rt a l Q, K g (PcConst a) vs rt l Q -> K g p vs rt (SPcConst a :: l) Q.
Proof. intros g p vs rt a l Q T s (R & P & VS & RT). cbn [run run1 bind]. apply T. split; [apply krel_pc; assumption|auto]. Qed.

(** Final states. *)
Definition kdone (g : kst) (p : pcreg) (rt : bool) (s : st) : Prop :=
  krel s g /\ s_pc s = p /\ pc_value c p 0 = Ok (V (TInt 64) (k_pc g)) /\ s_ret s = rt.
Lemma K_done : forall g g' p vs rt, kle g g' -> pc_value c p 0 = Ok (V (TInt 64) (k_pc g')) -> K g p vs rt [] (kdone g' p rt).
Proof.
  intros g g' p vs rt L P s (R & PC & VS & RT). exists s. split; [reflexivity|]. split; [eapply krel_kle; eassumption|auto].
Qed.
(** Non-branches end with SetIP(inst.end()). *)
Lemma K_end : forall i g g' p vs rt, k_pc g' = addr_pc_base c (a_start i) -> kle g g' ->
  K g p vs rt [SPcConst (a_end i)] (kdone (wrpc g' (k_pc g' + 4)) (PcConst (a_end i)) rt).
Proof.
  intros i g g' p vs rt P L. apply K_pc. apply K_done.
  - destruct L as (A & B & C & D & E & F). repeat split; auto.
  - cbn [pc_value wrpc k_pc]. rewrite Z.add_0_r. change U with trunc. unfold a_end.
    rewrite addr_pc_base_trunc, addr_pc_base_add, P. reflexivity.
Qed.

(** ** Flags *)
Lemma kle_nzcv : forall g n z c0 v, kle (setf (setf (setf (setf g fZ z) fN n) fC c0) fV v) (wrf g (nzcv n z c0 v)).
Proof. intros. repeat split; auto. intros [] b Q; cbn in *; exact Q. Qed.
Variable cfg : acfg.
Lemma K_flag_add : forall g p vs rt w x y e0 e1 e2 l Q, 0 < w <= 64 -> inr w x -> inr w y ->
  (forall g', kv g' p vs e2 w (trunc w (x + y))) -> (forall g', kv g' p vs e0 w x) -> (forall g', kv g' p vs e1 w y) ->
  K (wrf g (snd (awc w x y false))) p vs rt l Q -> K g p vs rt (FlagCalcAdd cfg w e2 e0 e1 ++ l) Q.
Proof.
  intros g p vs rt w x y e0 e1 e2 l Q W X Y E2 E0 E1 T. unfold FlagCalcAdd. cbn [app].
  pose proof (trunc_range w (x + y) ltac:(lia)) as RI. rewrite awc_add in T by (assumption || lia). cbn [snd] in T.
  apply (K_setflagT _ _ _ _ fZ _ _ _ _ _ (trunc w (x + y) =? 0)).
  { unfold transform_exp. pose proof (kv_cmp g p vs EQ _ _ w _ _ (E2 g) (kv_cI g p vs w 0)) as C. rewrite (trunc_small w 0) in C by (apply inr0; lia). exact C. }
  apply (K_setflagT _ _ _ _ fN _ _ _ _ _ (Z.testbit (trunc w (x + y)) (w - 1))).
  { unfold transform_exp. match goal with |- kv ?g' _ _ _ _ _ => pose proof (kv_cmp g' p vs SLT _ _ w _ _ (E2 g') (kv_cI g' p vs w 0)) as C end.
    rewrite (trunc_small w 0) in C by (apply inr0; lia). cbn [icmp_sem] in C. rewrite sgn_0, sgn_neg_testbit in C by (assumption || lia). exact C. }
  apply (K_setflagT _ _ _ _ fC _ _ _ _ _ (2^w <=? x + y)).
  { unfold transform_exp. match goal with |- kv ?g' _ _ _ _ _ => pose proof (kv_cmp g' p vs ULT _ _ w _ _ (E2 g') (E0 g')) as C end.
    cbn [icmp_sem] in C. rewrite carry_add in C by (assumption || lia). exact C. }
  destruct (al_ovf cfg).
  - apply (K_setflag _ _ _ _ fV _ (s_out w (sgn w x + sgn w y))).
    { intros s0 rt0 A0. unfold val, ev. cbn [eval]. pose proof (E0 _ s0 rt0 A0) as V0. pose proof (E1 _ s0 rt0 A0) as V1. unfold val, ev in V0, V1.
      rewrite V0, V1. cbn [bind sem2]. unfold ov_rv, same2. cbn [ty_of]. rewrite ty_eqb_refl. reflexivity. }
    eapply K_weaken; [apply kle_nzcv|exact T].
  - apply (K_setflagT _ _ _ _ fV _ _ _ _ _ (s_out w (sgn w x + sgn w y))).
    { unfold transform_exp. rewrite <- ovf_add by (assumption || lia).
      match goal with |- kv ?g' _ _ _ _ _ =>
        pose proof (kv_bin g' p vs Xor _ _ w _ _ _ (E0 g') (E1 g') eq_refl) as C1;
        pose proof (kv_bin g' p vs Xor _ _ w _ _ _ C1 (kv_cI g' p vs w (-1)) eq_refl) as C2;
        pose proof (kv_bin g' p vs Xor _ _ w _ _ _ (E2 g') (E0 g') eq_refl) as C3;
        pose proof (kv_bin g' p vs And _ _ w _ _ _ C2 C3 eq_refl) as C4;
        pose proof (kv_cmp g' p vs SLT _ _ w _ _ C4 (kv_cI g' p vs w 0)) as C end.
      rewrite (trunc_small w 0) in C by (apply inr0; lia). cbn [icmp_sem] in C. rewrite sgn_0 in C by lia. exact C. }
    eapply K_weaken; [apply kle_nzcv|exact T].
Qed.
Lemma K_flag_sub : forall g p vs rt w x y e0 e1 e2 l Q, 0 < w <= 64 -> inr w x -> inr w y ->
  (forall g', kv g' p vs e2 w (trunc w (x - y))) -> (forall g', kv g' p vs e0 w x) -> (forall g', kv g' p vs e1 w y) ->
  K (wrf g (snd (awc w x (knot w y) true))) p vs rt l Q -> K g p vs rt (FlagCalcSub w e2 e0 e1 ++ l) Q.
Proof.
  intros g p vs rt w x y e0 e1 e2 l Q W X Y E2 E0 E1 T. unfold FlagCalcSub. cbn [app].
  pose proof (trunc_range w (x - y) ltac:(lia)) as RI. rewrite awc_sub in T by (assumption || lia). cbn [snd] in T.
  assert (SFv : forall g', kv g' p vs (eCmp SLT e2 (cI w 0)) 1 (b2z (sgn w (trunc w (x - y)) <? 0))).
  { intro g'. pose proof (kv_cmp g' p vs SLT _ _ w _ _ (E2 g') (kv_cI g' p vs w 0)) as C.
    rewrite (trunc_small w 0) in C by (apply inr0; lia). cbn [icmp_sem] in C. rewrite sgn_0 in C by lia. exact C. }
  apply (K_setflag _ _ _ _ fZ _ (x =? y)). { apply (kv_cmp _ p vs EQ _ _ w _ _ (E0 _) (E1 _)). }
  apply (K_setflag _ _ _ _ fN _ (Z.testbit (trunc w (x - y)) (w - 1))).
  { eapply kv_eq; [|apply SFv]. rewrite sgn_neg_testbit by (assumption || lia). reflexivity. }
  apply (K_setflag _ _ _ _ fC _ (y <=? x)). { apply (kv_cmp _ p vs UGE _ _ w _ _ (E0 _) (E1 _)). }
  apply (K_setflag _ _ _ _ fV _ (s_out w (sgn w x - sgn w y))).
  { rewrite <- ovf_sub by (assumption || lia). apply (kv_cmp _ p vs NE _ _ 1 _ _ (SFv _)). apply (kv_cmp _ p vs SLT _ _ w _ _ (E0 _) (E1 _)). }
  eapply K_weaken; [apply kle_nzcv|exact T].
Qed.
Lemma K_flag_logic : forall g p vs rt w r e2 l Q, 0 < w <= 64 -> inr w r -> (forall g', kv g' p vs e2 w r) ->
  K (wrf g (nzcv (Z.testbit r (w - 1)) (r =? 0) false false)) p vs rt l Q -> K g p vs rt (FlagCalcLogic w e2 ++ l) Q.
Proof.
  intros g p vs rt w r e2 l Q W RI E2 T. unfold FlagCalcLogic. cbn [app].
  apply (K_setflagT _ _ _ _ fZ _ _ _ _ _ (r =? 0)).
  { unfold transform_exp. pose proof (kv_cmp g p vs EQ _ _ w _ _ (E2 g) (kv_cI g p vs w 0)) as C. rewrite (trunc_small w 0) in C by (apply inr0; lia). exact C. }
  apply (K_setflagT _ _ _ _ fN _ _ _ _ _ (Z.testbit r (w - 1))).
  { unfold transform_exp. match goal with |- kv ?g' _ _ _ _ _ => pose proof (kv_cmp g' p vs SLT _ _ w _ _ (E2 g') (kv_cI g' p vs w 0)) as C end.
    rewrite (trunc_small w 0) in C by (apply inr0; lia). cbn [icmp_sem] in C. rewrite sgn_0, sgn_neg_testbit in C by (assumption || lia). exact C. }
  apply (K_setflag _ _ _ _ fC _ false). { exact (kv_cI _ p vs 1 0). }
  apply (K_setflag _ _ _ _ fV _ false). { exact (kv_cI _ p vs 1 0). }
  eapply K_weaken; [apply kle_nzcv|exact T].
Qed.
End Sim.
