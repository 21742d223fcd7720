(** Arithmetic on bit patterns: the mathematical vocabulary of the model.

    A bit pattern of width [w] is an integer [z] with [0 <= z < 2^w]. This file
    contains no model of any code in /repo; it only provides the functions used
    to give LLVM-IR its meaning (IR.v) and lemmas about them. *)

From Coq Require Import ZArith Lia List Bool Btauto.
Import ListNotations.
Open Scope Z_scope.

Ltac Zify.zify_post_hook ::= Z.div_mod_to_equations.

(** Reduction modulo [2^w]. *)
Definition trunc (w z : Z) : Z := z mod 2^w.

(** Two's-complement reading of a pattern of width [w]. *)
Definition sgn (w z : Z) : Z := if z <? 2^(w-1) then z else z - 2^w.

(** Sign extension of a pattern of width [w] to width [w']. *)
Definition sext (w w' z : Z) : Z := trunc w' (sgn w z).

(** Range predicate. *)
Definition inr (w z : Z) : Prop := 0 <= z < 2^w.

Definition b2z (b : bool) : Z := if b then 1 else 0.

Lemma pow2_pos : forall w, 0 <= w -> 0 < 2^w.
Proof. intros w H. apply Z.pow_pos_nonneg; lia. Qed.

Lemma pow2_succ : forall w, 0 < w -> 2^w = 2 * 2^(w-1).
Proof.
  intros w H. replace w with (Z.succ (w-1)) at 1 by lia.
  rewrite Z.pow_succ_r by lia. reflexivity.
Qed.

Lemma trunc_range : forall w z, 0 <= w -> inr w (trunc w z).
Proof. intros w z H. unfold inr, trunc. pose proof (pow2_pos w H). lia. Qed.

Lemma trunc_small : forall w z, inr w z -> trunc w z = z.
Proof. intros w z [H1 H2]. unfold trunc. apply Z.mod_small. lia. Qed.

Lemma trunc_trunc : forall w z, 0 <= w -> trunc w (trunc w z) = trunc w z.
Proof. intros. apply trunc_small. apply trunc_range; assumption. Qed.

Lemma trunc_trunc_le : forall w w' z, 0 <= w <= w' -> trunc w (trunc w' z) = trunc w z.
Proof.
  intros w w' z H. unfold trunc.
  replace w' with (w + (w' - w)) by lia. rewrite Z.pow_add_r by lia.
  pose proof (pow2_pos w ltac:(lia)). pose proof (pow2_pos (w'-w) ltac:(lia)).
  rewrite Z.rem_mul_r by lia.
  rewrite (Z.mul_comm (2^w)), Z.mod_add by lia. apply Z.mod_mod. lia.
Qed.

Lemma trunc_add_l : forall w a b, 0 <= w -> trunc w (trunc w a + b) = trunc w (a + b).
Proof. intros. unfold trunc. pose proof (pow2_pos w H). apply Zplus_mod_idemp_l. Qed.
Lemma trunc_add_r : forall w a b, 0 <= w -> trunc w (a + trunc w b) = trunc w (a + b).
Proof. intros. unfold trunc. pose proof (pow2_pos w H). apply Zplus_mod_idemp_r. Qed.
Lemma trunc_sub_l : forall w a b, 0 <= w -> trunc w (trunc w a - b) = trunc w (a - b).
Proof. intros. unfold trunc. pose proof (pow2_pos w H). apply Zminus_mod_idemp_l. Qed.
Lemma trunc_sub_r : forall w a b, 0 <= w -> trunc w (a - trunc w b) = trunc w (a - b).
Proof. intros. unfold trunc. pose proof (pow2_pos w H). apply Zminus_mod_idemp_r. Qed.
Lemma trunc_mul_l : forall w a b, 0 <= w -> trunc w (trunc w a * b) = trunc w (a * b).
Proof. intros. unfold trunc. pose proof (pow2_pos w H). apply Zmult_mod_idemp_l. Qed.
Lemma trunc_mul_r : forall w a b, 0 <= w -> trunc w (a * trunc w b) = trunc w (a * b).
Proof. intros. unfold trunc. pose proof (pow2_pos w H). apply Zmult_mod_idemp_r. Qed.

Lemma sgn_range : forall w z, 0 < w -> inr w z -> - 2^(w-1) <= sgn w z < 2^(w-1).
Proof.
  intros w z Hw [H1 H2]. unfold sgn. pose proof (pow2_succ w Hw).
  destruct (Z.ltb_spec z (2^(w-1))); lia.
Qed.

Lemma trunc_sgn : forall w z, 0 < w -> inr w z -> trunc w (sgn w z) = z.
Proof.
  intros w z Hw [H1 H2]. unfold sgn, trunc. pose proof (pow2_pos w ltac:(lia)).
  destruct (Z.ltb_spec z (2^(w-1))).
  - apply Z.mod_small; lia.
  - replace (z - 2^w) with (z + (-1) * 2^w) by lia.
    rewrite Z.mod_add by lia. apply Z.mod_small; lia.
Qed.

(** [sgn] is the unique representative in the signed range. *)
Lemma sgn_unique : forall w z s,
  0 < w -> inr w z -> - 2^(w-1) <= s < 2^(w-1) -> trunc w s = z -> sgn w z = s.
Proof.
  intros w z s Hw [H1 H2] Hs Ht. unfold trunc in Ht. pose proof (pow2_succ w Hw) as P.
  pose proof (pow2_pos (w-1) ltac:(lia)) as Q.
  pose proof (Z.div_mod s (2^w) ltac:(lia)) as D. rewrite Ht in D.
  unfold sgn. destruct (Z.ltb_spec z (2^(w-1))).
  - assert (s / 2^w = 0) by nia. nia.
  - assert (s / 2^w = -1) by nia. nia.
Qed.

Lemma sgn_trunc_id : forall w s, 0 < w -> - 2^(w-1) <= s < 2^(w-1) -> sgn w (trunc w s) = s.
Proof.
  intros. apply sgn_unique; auto. apply trunc_range; lia.
Qed.

Lemma sext_same : forall w z, 0 < w -> inr w z -> sext w w z = z.
Proof. intros. unfold sext. apply trunc_sgn; assumption. Qed.

Lemma trunc_sext : forall w w' z, 0 < w <= w' -> inr w z -> trunc w (sext w w' z) = z.
Proof.
  intros w w' z H Hz. unfold sext. rewrite trunc_trunc_le by lia. apply trunc_sgn; [lia|assumption].
Qed.

Lemma inr_le : forall w w' z, 0 <= w <= w' -> inr w z -> inr w' z.
Proof.
  intros w w' z H [H1 H2]. split; [lia|].
  assert (2^w <= 2^w') by (apply Z.pow_le_mono_r; lia). lia.
Qed.

Lemma inr_b2z : forall w b, 1 <= w -> inr w (b2z b).
Proof.
  intros w b H. apply (inr_le 1); [lia|]. destruct b; unfold inr, b2z; simpl; lia.
Qed.

Lemma trunc_ones : forall w z, 0 <= w -> trunc w z = Z.land z (Z.ones w).
Proof. intros. unfold trunc. symmetry. apply Z.land_ones. assumption. Qed.

(** Bit-level characterisations. *)
Lemma testbit_trunc : forall w z i, 0 <= w -> 0 <= i ->
  Z.testbit (trunc w z) i = (i <? w) && Z.testbit z i.
Proof.
  intros w z i Hw Hi. unfold trunc. destruct (Z.ltb_spec i w).
  - rewrite Z.mod_pow2_bits_low by lia. reflexivity.
  - rewrite Z.mod_pow2_bits_high by lia. reflexivity.
Qed.

Lemma testbit_inr_high : forall w z i, 0 <= w -> inr w z -> w <= i -> Z.testbit z i = false.
Proof.
  intros w z i Hw Hz Hi. rewrite <- (trunc_small w z Hz).
  rewrite testbit_trunc by lia. destruct (Z.ltb_spec i w); [lia|reflexivity].
Qed.

Lemma inr_testbit : forall w z, 0 <= w -> 0 <= z ->
  (forall i, w <= i -> Z.testbit z i = false) -> inr w z.
Proof.
  intros w z Hw Hz H. assert (E : z = trunc w z).
  { apply Z.bits_inj'. intros i Hi. rewrite testbit_trunc by lia.
    destruct (Z.ltb_spec i w); [reflexivity|]. apply H; assumption. }
  rewrite E. apply trunc_range. assumption.
Qed.

Lemma bits_eq : forall w a b, 0 <= w -> inr w a -> inr w b ->
  (forall i, 0 <= i < w -> Z.testbit a i = Z.testbit b i) -> a = b.
Proof.
  intros w a b Hw Ha Hb H. apply Z.bits_inj'. intros i Hi.
  destruct (Z.lt_ge_cases i w).
  - apply H; lia.
  - rewrite (testbit_inr_high w a), (testbit_inr_high w b) by (try assumption; lia). reflexivity.
Qed.

Lemma testbit_sgn : forall w z i, 0 < w -> inr w z -> 0 <= i ->
  Z.testbit (sgn w z) i = if i <? w then Z.testbit z i else Z.testbit z (w-1).
Proof.
  intros w z i Hw Hz Hi.
  pose proof (trunc_sgn w z Hw Hz) as T.
  destruct (Z.ltb_spec i w).
  - rewrite <- T at 2. rewrite testbit_trunc by lia.
    destruct (Z.ltb_spec i w); [reflexivity|lia].
  - assert (S : Z.testbit z (w-1) = (2^(w-1) <=? z)).
    { destruct Hz as [H1 H2]. pose proof (pow2_succ w Hw).
      pose proof (pow2_pos (w-1) ltac:(lia)).
      rewrite Z.testbit_odd, Z.shiftr_div_pow2 by lia.
      destruct (Z.leb_spec (2^(w-1)) z).
      - replace (z / 2^(w-1)) with 1; [reflexivity|].
        apply (Z.div_unique z (2^(w-1)) 1 (z - 2^(w-1))); lia.
      - rewrite Z.div_small by lia. reflexivity. }
    rewrite S. unfold sgn. destruct Hz as [H1 H2].
    destruct (Z.ltb_spec z (2^(w-1))); destruct (Z.leb_spec (2^(w-1)) z); try lia.
    + apply (testbit_inr_high w); try lia. unfold inr; lia.
    + assert (E : z - 2^w = Z.lnot (2^w - 1 - z)) by (unfold Z.lnot; lia).
      rewrite E, Z.lnot_spec by lia.
      rewrite (testbit_inr_high w) by (unfold inr; lia). reflexivity.
Qed.

Lemma testbit_sext : forall w w' z i, 0 < w -> 0 <= w' -> inr w z -> 0 <= i ->
  Z.testbit (sext w w' z) i = (i <? w') && (if i <? w then Z.testbit z i else Z.testbit z (w-1)).
Proof.
  intros. unfold sext. rewrite testbit_trunc by lia. rewrite testbit_sgn by (assumption || lia). reflexivity.
Qed.

Lemma sgn_neg_testbit : forall w z, 0 < w -> inr w z -> (sgn w z <? 0) = Z.testbit z (w-1).
Proof.
  intros w z Hw Hz.
  pose proof (testbit_sgn w z w Hw Hz ltac:(lia)) as T.
  destruct (Z.ltb_spec w w) in T; [lia|]. rewrite <- T.
  pose proof (sgn_range w z Hw Hz) as R. pose proof (pow2_pos (w-1) ltac:(lia)).
  pose proof (pow2_succ w Hw).
  destruct (Z.ltb_spec (sgn w z) 0).
  - symmetry. assert (E : sgn w z = Z.lnot (- sgn w z - 1)) by (unfold Z.lnot; lia).
    rewrite E, Z.lnot_spec by lia.
    rewrite (testbit_inr_high w) by (unfold inr; lia). reflexivity.
  - symmetry. apply (testbit_inr_high w); unfold inr; lia.
Qed.

(** Bitwise operations keep patterns in range. *)
Lemma land_inr : forall w a b, 0 <= w -> inr w a -> inr w b -> inr w (Z.land a b).
Proof.
  intros w a b Hw Ha Hb. apply inr_testbit; [assumption| |].
  - apply Z.land_nonneg. left. apply Ha.
  - intros i Hi. rewrite Z.land_spec, (testbit_inr_high w a) by assumption. reflexivity.
Qed.
Lemma land_inr_l : forall w a b, 0 <= w -> inr w a -> inr w (Z.land a b).
Proof.
  intros w a b Hw Ha. apply inr_testbit; [assumption| |].
  - apply Z.land_nonneg. left. apply Ha.
  - intros i Hi. rewrite Z.land_spec, (testbit_inr_high w a) by assumption. reflexivity.
Qed.
Lemma lor_inr : forall w a b, 0 <= w -> inr w a -> inr w b -> inr w (Z.lor a b).
Proof.
  intros w a b Hw Ha Hb. apply inr_testbit; [assumption| |].
  - apply Z.lor_nonneg. split; [apply Ha|apply Hb].
  - intros i Hi. rewrite Z.lor_spec, (testbit_inr_high w a), (testbit_inr_high w b) by assumption. reflexivity.
Qed.
Lemma lxor_inr : forall w a b, 0 <= w -> inr w a -> inr w b -> inr w (Z.lxor a b).
Proof.
  intros w a b Hw Ha Hb. apply inr_testbit; [assumption| |].
  - apply Z.lxor_nonneg. split; intros _; [apply Hb|apply Ha].
  - intros i Hi. rewrite Z.lxor_spec, (testbit_inr_high w a), (testbit_inr_high w b) by assumption. reflexivity.
Qed.

Lemma shiftr_inr : forall w z k, 0 <= w -> 0 <= k -> inr w z -> inr w (Z.shiftr z k).
Proof.
  intros w z k Hw Hk Hz. apply inr_testbit; [assumption| |].
  - apply Z.shiftr_nonneg. apply Hz.
  - intros i Hi. rewrite Z.shiftr_spec by lia. apply (testbit_inr_high w); try assumption; lia.
Qed.

Lemma shiftr_inr_sub : forall w z k, 0 <= k <= w -> inr w z -> inr (w-k) (Z.shiftr z k).
Proof.
  intros w z k Hk Hz. apply inr_testbit; [lia| |].
  - apply Z.shiftr_nonneg. apply Hz.
  - intros i Hi. rewrite Z.shiftr_spec by lia. apply (testbit_inr_high w); try assumption; lia.
Qed.

Lemma ones_inr : forall w, 0 <= w -> inr w (Z.ones w).
Proof. intros. rewrite Z.ones_equiv. pose proof (pow2_pos w H). unfold inr; lia. Qed.

(** Not on [w] bits. *)
Definition bnot (w z : Z) : Z := Z.lxor z (Z.ones w).
Lemma testbit_ones : forall w i, 0 <= w -> 0 <= i -> Z.testbit (Z.ones w) i = (i <? w).
Proof.
  intros. destruct (Z.ltb_spec i w).
  - apply Z.ones_spec_low; lia.
  - apply Z.ones_spec_high; lia.
Qed.
Lemma testbit_bnot : forall w z i, 0 <= i < w -> Z.testbit (bnot w z) i = negb (Z.testbit z i).
Proof.
  intros. unfold bnot. rewrite Z.lxor_spec, testbit_ones by lia.
  destruct (Z.ltb_spec i w); [|lia]. apply xorb_true_r.
Qed.
Lemma bnot_inr : forall w z, 0 <= w -> inr w z -> inr w (bnot w z).
Proof. intros. apply lxor_inr; try assumption. apply ones_inr; assumption. Qed.
Lemma bnot_val : forall w z, 0 <= w -> inr w z -> bnot w z = 2^w - 1 - z.
Proof.
  intros w z Hw Hz. apply (bits_eq w); try lia.
  - apply bnot_inr; assumption.
  - destruct Hz. unfold inr. lia.
  - intros i Hi. rewrite testbit_bnot by lia.
    assert (E : 2^w - 1 - z = trunc w (Z.lnot z)).
    { unfold trunc, Z.lnot. destruct Hz.
      apply (Z.mod_unique _ _ (-1) (2^w - 1 - z)); [left; lia|lia]. }
    rewrite E, testbit_trunc, Z.lnot_spec by lia.
    destruct (Z.ltb_spec i w); [reflexivity|lia].
Qed.

(** Lanes of a vector pattern: lane 0 is the least significant one. *)
Definition lane (w z i : Z) : Z := trunc w (Z.shiftr z (w * i)).

Fixpoint lanes_from (w z : Z) (i : Z) (n : nat) : list Z :=
  match n with
  | O => nil
  | S n' => lane w z i :: lanes_from w z (i + 1) n'
  end.
Definition lanes (n w z : Z) : list Z := lanes_from w z 0 (Z.to_nat n).

Fixpoint unlanes (w : Z) (l : list Z) : Z :=
  match l with
  | nil => 0
  | x :: l' => x + 2^w * unlanes w l'
  end.

Lemma lane_inr : forall w z i, 0 <= w -> inr w (lane w z i).
Proof. intros. apply trunc_range. assumption. Qed.

Lemma lanes_from_length : forall n w z i, length (lanes_from w z i n) = n.
Proof. induction n; intros; simpl; [reflexivity|]. f_equal. apply IHn. Qed.

Lemma lanes_length : forall n w z, length (lanes n w z) = Z.to_nat n.
Proof. intros. apply lanes_from_length. Qed.

Lemma lanes_from_nth : forall n w z i k d, (k < n)%nat ->
  nth k (lanes_from w z i n) d = lane w z (i + Z.of_nat k).
Proof.
  induction n; intros w z i k d H; [lia|].
  destruct k; simpl.
  - f_equal. lia.
  - rewrite IHn by lia. f_equal. lia.
Qed.

Lemma lanes_nth : forall n w z k d, (k < Z.to_nat n)%nat ->
  nth k (lanes n w z) d = lane w z (Z.of_nat k).
Proof. intros. unfold lanes. rewrite lanes_from_nth by assumption. f_equal. Qed.

Lemma lanes_from_Forall : forall n w z i, 0 <= w -> Forall (inr w) (lanes_from w z i n).
Proof. induction n; intros; simpl; constructor; auto. apply lane_inr; assumption. Qed.

Lemma lanes_Forall : forall n w z, 0 <= w -> Forall (inr w) (lanes n w z).
Proof. intros. apply lanes_from_Forall. assumption. Qed.

Lemma unlanes_inr : forall w l, 0 <= w -> Forall (inr w) l -> inr (w * Z.of_nat (length l)) (unlanes w l).
Proof.
  intros w l Hw H. induction H as [|x l Hx H IH].
  - unfold inr. cbn [length unlanes]. change (Z.of_nat 0) with 0. rewrite Z.mul_0_r. simpl. lia.
  - cbn [unlanes length]. rewrite Nat2Z.inj_succ.
    replace (w * Z.succ (Z.of_nat (length l))) with (w + w * Z.of_nat (length l)) by lia.
    assert (0 <= w * Z.of_nat (length l)) by (apply Z.mul_nonneg_nonneg; lia).
    unfold inr in *. rewrite Z.pow_add_r by lia. nia.
Qed.

Lemma lane_cons_0 : forall w x y, 0 <= w -> inr w x -> lane w (x + 2^w * y) 0 = x.
Proof.
  intros w x y Hw [H1 H2]. unfold lane. rewrite Z.mul_0_r, Z.shiftr_0_r. unfold trunc.
  rewrite (Z.mul_comm (2^w)), Z.mod_add by lia. apply Z.mod_small; lia.
Qed.

Lemma lane_cons_S : forall w x y i, 0 <= w -> inr w x -> 0 <= i ->
  lane w (x + 2^w * y) (i + 1) = lane w y i.
Proof.
  intros w x y i Hw [H1 H2] Hi. unfold lane. f_equal.
  replace (w * (i + 1)) with (w + w * i) by lia.
  rewrite <- Z.shiftr_shiftr by nia. f_equal.
  rewrite Z.shiftr_div_pow2 by lia.
  rewrite (Z.mul_comm (2^w)), Z.div_add by lia.
  rewrite Z.div_small by lia. lia.
Qed.

Lemma lane_unlanes : forall w l k, 0 <= w -> Forall (inr w) l ->
  lane w (unlanes w l) (Z.of_nat k) = nth k l 0.
Proof.
  intros w l k Hw H. revert k. induction H as [|x l Hx H IH]; intros k.
  - cbn [unlanes]. unfold lane. rewrite Z.shiftr_0_l. destruct k; reflexivity.
  - cbn [unlanes]. destruct k.
    + apply lane_cons_0; assumption.
    + rewrite Nat2Z.inj_succ. unfold Z.succ. rewrite lane_cons_S by (try assumption; lia).
      cbn [nth]. apply IH.
Qed.

Lemma testbit_lane : forall w z k j, 0 <= w -> 0 <= k -> 0 <= j < w ->
  Z.testbit (lane w z k) j = Z.testbit z (w * k + j).
Proof.
  intros. unfold lane. rewrite testbit_trunc, Z.shiftr_spec by lia.
  destruct (Z.ltb_spec j w); [|lia]. cbn [andb]. f_equal. lia.
Qed.

(** Two patterns of width [n*w] are equal iff their lanes are. *)
Lemma lanes_ext : forall n w a b, 0 < w -> 0 <= n -> inr (w*n) a -> inr (w*n) b ->
  (forall i, 0 <= i < n -> lane w a i = lane w b i) -> a = b.
Proof.
  intros n w a b Hw Hn Ha Hb H. apply (bits_eq (w*n)); try assumption; try nia.
  intros i Hi. pose proof (Z.div_mod i w ltac:(lia)) as D.
  pose proof (Z.mod_pos_bound i w ltac:(lia)) as M.
  assert (0 <= i / w) by (apply Z.div_pos; lia).
  assert (i / w < n) by (apply Z.div_lt_upper_bound; nia).
  rewrite D.
  rewrite <- !(testbit_lane w _ (i/w) (i mod w)) by lia.
  rewrite H by lia. reflexivity.
Qed.

Lemma unlanes_lanes : forall n w z, 0 < w -> 0 <= n -> inr (w*n) z -> unlanes w (lanes n w z) = z.
Proof.
  intros n w z Hw Hn Hz. apply (lanes_ext n w); try assumption.
  - pose proof (unlanes_inr w (lanes n w z) ltac:(lia) (lanes_Forall n w z ltac:(lia))) as R.
    rewrite lanes_length, Z2Nat.id in R by lia. exact R.
  - intros i Hi. replace i with (Z.of_nat (Z.to_nat i)) by lia.
    rewrite lane_unlanes by (try lia; apply lanes_Forall; lia).
    rewrite lanes_nth by lia. reflexivity.
Qed.

(** Number of one bits. *)
Fixpoint popcount_nat (n : nat) (z : Z) : Z :=
  match n with
  | O => 0
  | S n' => b2z (Z.testbit z (Z.of_nat n')) + popcount_nat n' z
  end.
Definition popcount (w z : Z) : Z := popcount_nat (Z.to_nat w) z.

Lemma popcount_nat_range : forall n z, 0 <= popcount_nat n z <= Z.of_nat n.
Proof.
  induction n; intros; cbn [popcount_nat]; [lia|].
  specialize (IHn z). destruct (Z.testbit z (Z.of_nat n)); unfold b2z; lia.
Qed.

(** Byte memory: total map from addresses to byte values. *)
Definition bytes := Z -> Z.
Definition wrap64 (a : Z) : Z := a mod 2^64.

Fixpoint load_bytes (m : bytes) (a : Z) (n : nat) : Z :=
  match n with
  | O => 0
  | S n' => m (wrap64 a) mod 256 + 256 * load_bytes m (a + 1) n'
  end.
Fixpoint store_bytes (m : bytes) (a : Z) (n : nat) (v : Z) : bytes :=
  match n with
  | O => m
  | S n' => store_bytes (fun x => if x =? wrap64 a then v mod 256 else m x) (a + 1) n' (v / 256)
  end.

Lemma load_bytes_range : forall n m a, 0 <= load_bytes m a n < 2^(8 * Z.of_nat n).
Proof.
  induction n; intros; [simpl; lia|]. cbn [load_bytes]. specialize (IHn m (a+1)).
  replace (8 * Z.of_nat (S n)) with (8 + 8 * Z.of_nat n) by lia.
  rewrite Z.pow_add_r by lia. change (2^8) with 256.
  pose proof (Z.mod_pos_bound (m (wrap64 a)) 256 ltac:(lia)). nia.
Qed.
