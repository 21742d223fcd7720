(** Arithmetic facts linking the LLVM operations of IR.v to the specification
    functions of Rv64Spec.v. *)

From Coq Require Import ZArith Lia ZifyBool List Bool.
From Verif Require Import Bits IR Rv64Spec.
Import ListNotations.
Open Scope Z_scope.
Ltac Zify.zify_post_hook ::= Z.div_mod_to_equations.

Lemma land_mask : forall k x, 0 <= k -> Z.land x (2^k - 1) = x mod 2^k.
Proof. intros. rewrite <- Z.land_ones by lia. rewrite Z.ones_equiv. reflexivity. Qed.

Lemma mask_w : forall w k x, 0 <= k <= w -> w = 2^k -> Z.land (trunc w x) (trunc w (w - 1)) = x mod w.
Proof.
  intros w k x K E.
  assert (W : 0 < w) by (rewrite E; apply pow2_pos; lia).
  assert (L : w < 2^w) by (apply Z.pow_gt_lin_r; lia).
  rewrite (trunc_small w (w-1)) by (unfold inr; lia).
  rewrite E at 2. rewrite land_mask by lia. change (trunc k (trunc w x) = x mod w).
  rewrite trunc_trunc_le by lia. unfold trunc. rewrite <- E. reflexivity.
Qed.
Lemma mask64 : forall x, Z.land (trunc 64 x) (trunc 64 63) = x mod 64.
Proof. intros. apply (mask_w 64 6); [lia|reflexivity]. Qed.
Lemma mask32 : forall x, Z.land (trunc 32 x) (trunc 32 31) = x mod 32.
Proof. intros. apply (mask_w 32 5); [lia|reflexivity]. Qed.

Lemma mod64_trunc : forall w x, 6 <= w -> trunc w x mod 64 = x mod 64.
Proof. intros. change 64 with (2^6). apply (trunc_trunc_le 6 w). lia. Qed.

Lemma shl_val : forall w a k, 0 <= w -> 0 <= k ->
  trunc w (Z.shiftl (trunc w a) k) = trunc w (a * 2^k).
Proof. intros. rewrite Z.shiftl_mul_pow2 by lia. rewrite trunc_mul_l by lia. reflexivity. Qed.
Lemma shr_val : forall a k, 0 <= k -> Z.shiftr a k = a / 2^k.
Proof. intros. apply Z.shiftr_div_pow2. lia. Qed.

Lemma div_inr : forall w a k, 0 <= w -> 0 <= k -> inr w a -> inr w (a / 2^k).
Proof. intros. rewrite <- shr_val by lia. apply shiftr_inr; assumption. Qed.

(** Truncating after a right shift commutes with truncating before at a larger width. *)
Lemma trunc_shiftr_trunc : forall w k W P, 0 <= w -> 0 <= k -> w + k <= W ->
  trunc w (Z.shiftr (trunc W P) k) = trunc w (P / 2^k).
Proof.
  intros. rewrite <- shr_val by lia. apply bits_eq with (w := w); try lia; try (apply trunc_range; lia).
  intros j Hj. rewrite !testbit_trunc by lia. destruct (j <? w) eqn:E; [|reflexivity].
  rewrite !Z.shiftr_spec by lia. rewrite testbit_trunc by lia. destruct (j + k <? W) eqn:E2; [reflexivity|lia].
Qed.

Lemma trunc_S : forall w z, 0 < w -> trunc w (S_ w z) = trunc w z.
Proof.
  intros. change (S_ w z) with (sgn w (trunc w z)). apply trunc_sgn; [lia|apply trunc_range; lia].
Qed.
Lemma S_small : forall w z, inr w z -> S_ w z = sgn w z.
Proof. intros w z H. unfold S_, sgn. fold (trunc w z). rewrite trunc_small by assumption. reflexivity. Qed.
Lemma S_range : forall w z, 0 < w -> - 2^(w-1) <= S_ w z < 2^(w-1).
Proof. intros. change (S_ w z) with (sgn w (trunc w z)). apply sgn_range; [lia|apply trunc_range; lia]. Qed.
Lemma S_id : forall w z, 0 < w -> - 2^(w-1) <= z < 2^(w-1) -> S_ w z = z.
Proof. intros. change (S_ w z) with (sgn w (trunc w z)). apply sgn_trunc_id; assumption. Qed.
Lemma S_congr : forall w x y, trunc w x = trunc w y -> S_ w x = S_ w y.
Proof. intros w x y E. unfold S_. fold (trunc w x). fold (trunc w y). rewrite E. reflexivity. Qed.

(** ** Division *)
Lemma sdiv_ok : forall w a b, 1 < w -> inr w a -> inr w b -> b <> 0 -> b <> 2^w - 1 ->
  ibin SDiv w a b = IV (trunc w (Z.quot (sgn w a) (sgn w b))).
Proof.
  intros w a b W A B B0 B1. cbn [ibin]. destruct (b =? 0) eqn:E; [lia|].
  destruct (sgn w b =? -1) eqn:E1; [|rewrite andb_false_r; reflexivity].
  exfalso. apply B1. apply Z.eqb_eq in E1. rewrite <- (trunc_sgn w b) by (lia || assumption). rewrite E1.
  unfold trunc. rewrite (Z.mod_unique (-1) (2^w) (-1) (2^w - 1)); [reflexivity| |lia].
  left. pose proof (pow2_pos w ltac:(lia)). lia.
Qed.
Lemma srem_ok : forall w a b, 1 < w -> inr w a -> inr w b -> b <> 0 -> b <> 2^w - 1 ->
  ibin SRem w a b = IV (trunc w (Z.rem (sgn w a) (sgn w b))).
Proof.
  intros w a b W A B B0 B1. cbn [ibin]. destruct (b =? 0) eqn:E; [lia|].
  destruct (sgn w b =? -1) eqn:E1; [|rewrite andb_false_r; reflexivity].
  exfalso. apply B1. apply Z.eqb_eq in E1. rewrite <- (trunc_sgn w b) by (lia || assumption). rewrite E1.
  unfold trunc. rewrite (Z.mod_unique (-1) (2^w) (-1) (2^w - 1)); [reflexivity| |lia].
  left. pose proof (pow2_pos w ltac:(lia)). lia.
Qed.
Lemma sgn_zero_iff : forall w b, 0 < w -> inr w b -> (sgn w b = 0 <-> b = 0).
Proof.
  intros w b W B. split; intro E.
  - rewrite <- (trunc_sgn w b) by assumption. rewrite E. reflexivity.
  - subst. unfold sgn. pose proof (pow2_pos (w-1) ltac:(lia)). destruct (0 <? 2^(w-1)) eqn:X; [reflexivity|lia].
Qed.
Lemma sgn_ones : forall w, 0 < w -> sgn w (2^w - 1) = -1.
Proof.
  intros. unfold sgn. pose proof (pow2_pos (w-1) ltac:(lia)). rewrite (pow2_succ w) by lia.
  destruct (2 * 2^(w-1) - 1 <? 2^(w-1)) eqn:E; lia.
Qed.
Lemma trunc_m1 : forall w, 0 <= w -> trunc w (-1) = 2^w - 1.
Proof.
  intros. unfold trunc. symmetry. pose proof (pow2_pos w ltac:(lia)). apply Z.mod_unique with (q := -1); lia.
Qed.
Lemma udiv_inr : forall w a b, 0 <= w -> inr w a -> inr w b -> b <> 0 -> inr w (a / b).
Proof. intros w a b W [A1 A2] [B1 B2] N. split; [apply Z.div_pos; lia|]. apply Z.le_lt_trans with a; [|lia]. apply Z.div_le_upper_bound; nia. Qed.
Lemma urem_inr : forall w a b, inr w a -> inr w b -> b <> 0 -> inr w (a mod b).
Proof. intros w a b [A1 A2] [B1 B2] N. pose proof (Z.mod_pos_bound a b ltac:(lia)). split; lia. Qed.

(** ** Counting *)
Lemma clz_high : forall n a, 0 <= a < 2 ^ Z.of_nat n ->
  clz n a = if a =? 0 then Z.of_nat n else Z.of_nat n - 1 - Z.log2 a.
Proof.
  induction n; intros a A.
  - change (Z.of_nat 0) with 0 in *. rewrite Z.pow_0_r in A. assert (a = 0) by lia. subst. reflexivity.
  - cbn [clz]. destruct (Z.testbit a (Z.of_nat n)) eqn:T.
    + assert (a <> 0) by (intro; subst; rewrite Z.bits_0 in T; discriminate).
      destruct (a =? 0) eqn:E; [lia|].
      assert (Z.of_nat n <= Z.log2 a).
      { destruct (Z.le_gt_cases (Z.of_nat n) (Z.log2 a)) as [L|L]; [assumption|].
        rewrite Z.bits_above_log2 in T by lia. discriminate. }
      assert (Z.log2 a < Z.of_nat (S n)) by (apply Z.log2_lt_pow2; lia). lia.
    + assert (B : 0 <= a < 2 ^ Z.of_nat n).
      { split; [lia|]. destruct (Z.lt_ge_cases a (2 ^ Z.of_nat n)) as [L|L]; [assumption|exfalso].
        assert (Z.log2 a = Z.of_nat n).
        { assert (0 < a) by (pose proof (pow2_pos (Z.of_nat n)); lia).
          apply Z.log2_unique; [lia|]. replace (Z.succ (Z.of_nat n)) with (Z.of_nat (S n)) by lia. lia. }
        rewrite <- H in T. rewrite Z.bit_log2 in T; [discriminate|]. pose proof (pow2_pos (Z.of_nat n)). lia. }
      rewrite (IHn a B). destruct (a =? 0); lia.
Qed.
Lemma cttz_from_spec : forall n z i, 0 <= i -> cttz_from z i n = i + ctz n (Z.shiftr z i).
Proof.
  induction n; intros z i Hi; cbn [cttz_from ctz]; [lia|].
  rewrite <- Z.bit0_odd, Z.shiftr_spec by lia. rewrite Z.add_0_l.
  destruct (Z.testbit z i); [lia|]. rewrite IHn by lia.
  replace (Z.shiftr z (i+1)) with (Z.shiftr z i / 2); [lia|].
  rewrite <- Z.shiftr_shiftr by lia. rewrite (shr_val (Z.shiftr z i) 1) by lia. reflexivity.
Qed.
Lemma ctz_zero : forall n, ctz n 0 = Z.of_nat n.
Proof. induction n; [reflexivity|]. cbn [ctz]. change (Z.odd 0) with false. change (0/2) with 0. rewrite IHn. lia. Qed.
Lemma ctz_congr : forall n a b, trunc (Z.of_nat n) a = trunc (Z.of_nat n) b -> ctz n a = ctz n b.
Proof.
  induction n; intros a b E; [reflexivity|]. cbn [ctz].
  assert (T : forall j, 0 <= j < Z.of_nat (S n) -> Z.testbit a j = Z.testbit b j).
  { intros j Hj. assert (X : Z.testbit (trunc (Z.of_nat (S n)) a) j = Z.testbit (trunc (Z.of_nat (S n)) b) j) by (rewrite E; reflexivity).
    rewrite !testbit_trunc in X by lia. destruct (j <? Z.of_nat (S n)) eqn:L; [assumption|lia]. }
  rewrite <- !Z.bit0_odd. rewrite (T 0) by lia. destruct (Z.testbit b 0); [reflexivity|]. f_equal.
  apply IHn. apply bits_eq with (w := Z.of_nat n); try lia; try (apply trunc_range; lia).
  intros j Hj. rewrite !testbit_trunc by lia. destruct (j <? Z.of_nat n) eqn:L; [|reflexivity].
  change (a / 2) with (a / 2^1). change (b / 2) with (b / 2^1). rewrite <- !shr_val by lia.
  rewrite !Z.shiftr_spec by lia. apply T. lia.
Qed.
Lemma clz_congr : forall n a b, (forall j, 0 <= j < Z.of_nat n -> Z.testbit a j = Z.testbit b j) -> clz n a = clz n b.
Proof.
  induction n; intros a b T; [reflexivity|]. cbn [clz]. rewrite (T (Z.of_nat n)) by lia.
  destruct (Z.testbit b (Z.of_nat n)); [reflexivity|]. f_equal. apply IHn. intros. apply T. lia.
Qed.
Lemma ctz_range : forall n a, 0 <= ctz n a <= Z.of_nat n.
Proof. induction n; intros; cbn [ctz]; [lia|]. specialize (IHn (a/2)). destruct (Z.odd a); lia. Qed.
Lemma clz_range : forall n a, 0 <= clz n a <= Z.of_nat n.
Proof. induction n; intros; cbn [clz]; [lia|]. specialize (IHn a). destruct (Z.testbit a (Z.of_nat n)); lia. Qed.
Lemma ctlz_ok : forall n a, inr (Z.of_nat n) a -> intr1_sem (Ctlz false) (Z.of_nat n) a = IV (clz n a).
Proof.
  intros n a A. cbn [intr1_sem]. rewrite (clz_high n a A). destruct (a =? 0); reflexivity.
Qed.
Lemma cttz_ok : forall n a, intr1_sem (Cttz false) (Z.of_nat n) a = IV (ctz n a).
Proof.
  intros n a. cbn [intr1_sem]. destruct (a =? 0) eqn:E.
  - apply Z.eqb_eq in E. subst. rewrite ctz_zero. reflexivity.
  - rewrite Nat2Z.id, cttz_from_spec by lia. rewrite Z.shiftr_0_r. reflexivity.
Qed.

Lemma bit0_b2z : forall z, b2z (Z.testbit z 0) = z mod 2.
Proof. intros. rewrite Z.bit0_odd, Zmod_odd. reflexivity. Qed.
Lemma popcount_snoc : forall n z, popcount_nat (S n) z = z mod 2 + popcount_nat n (z / 2).
Proof.
  induction n; intros z.
  - cbn [popcount_nat]. change (Z.of_nat 0) with 0. rewrite bit0_b2z. lia.
  - change (popcount_nat (S (S n)) z) with (b2z (Z.testbit z (Z.of_nat (S n))) + popcount_nat (S n) z).
    rewrite IHn. cbn [popcount_nat].
    replace (Z.testbit z (Z.of_nat (S n))) with (Z.testbit (z/2) (Z.of_nat n)); [lia|].
    change (z / 2) with (z / 2^1). rewrite <- shr_val, Z.shiftr_spec by lia. f_equal. lia.
Qed.
Lemma popcount_cpop : forall n z, popcount_nat n z = cpop n z.
Proof.
  induction n; intros; [reflexivity|]. rewrite popcount_snoc. cbn [cpop]. rewrite IHn. reflexivity.
Qed.
Lemma popcount_congr : forall n a b, (forall j, 0 <= j < Z.of_nat n -> Z.testbit a j = Z.testbit b j) ->
  popcount_nat n a = popcount_nat n b.
Proof.
  induction n; intros a b T; [reflexivity|]. cbn [popcount_nat]. rewrite (T (Z.of_nat n)) by lia.
  f_equal. apply IHn. intros. apply T. lia.
Qed.
Lemma trunc_low_bits : forall w z j, 0 <= j < w -> Z.testbit (trunc w z) j = Z.testbit z j.
Proof. intros. rewrite testbit_trunc by lia. destruct (j <? w) eqn:E; [reflexivity|lia]. Qed.

(** ** Rotation *)
Lemma fshl_rot : forall w a k, 0 < w -> inr w a -> fsh_sem true w a a k = trunc w (rotl w a k).
Proof.
  intros w a k W A. unfold fsh_sem, rotl, U. fold (trunc w a). rewrite (trunc_small w a) by assumption.
  pose proof (Z.mod_pos_bound k w W) as K. set (r := k mod w) in *.
  rewrite Z.shiftl_mul_pow2, shr_val by lia.
  f_equal. pose proof (pow2_pos w ltac:(lia)) as P.
  rewrite Z.mul_add_distr_r.
  replace (a * 2^w * 2^r) with (a * 2^r * 2^w) by ring.
  rewrite Z.div_add_l by lia. f_equal.
  replace (2^w) with (2^(w-r) * 2^r) by (rewrite <- Z.pow_add_r by lia; f_equal; lia).
  apply Z.div_mul_cancel_r; apply Z.pow_nonzero; lia.
Qed.
Lemma fshr_rot : forall w a k, 0 < w -> inr w a -> fsh_sem false w a a k = trunc w (rotr w a k).
Proof.
  intros w a k W A. unfold fsh_sem, rotr, rotl, U. fold (trunc w a). rewrite (trunc_small w a) by assumption.
  pose proof (Z.mod_pos_bound k w W) as K. rewrite shr_val by lia.
  pose proof (pow2_pos w ltac:(lia)) as P. destruct A as [A1 A2].
  destruct (Z.eq_dec (k mod w) 0) as [E|E].
  - rewrite E. assert (E2 : (- k) mod w = 0) by (apply Z.mod_opp_l_z; lia).
    rewrite E2. rewrite Z.pow_0_r, Z.sub_0_r, Z.div_1_r, Z.mul_1_r. rewrite Z.div_small by lia.
    rewrite Z.add_0_r. unfold trunc. rewrite Z.add_comm, Z_mod_plus_full. reflexivity.
  - assert (E2 : (- k) mod w = w - k mod w) by (apply Z.mod_opp_l_nz; lia).
    rewrite E2. set (r := k mod w) in *. replace (w - (w - r)) with r by lia.
    f_equal. replace (2^w) with (2^(w-r) * 2^r) by (rewrite <- Z.pow_add_r by lia; f_equal; lia).
    rewrite Z.mul_assoc. rewrite Z.div_add_l; [reflexivity|]. apply Z.pow_nonzero; lia.
Qed.
Lemma rotl_congr : forall w a k k', k mod w = k' mod w -> rotl w a k = rotl w a k'.
Proof. intros w a k k' E. unfold rotl. rewrite E. reflexivity. Qed.
Lemma rotl_trunc : forall w a k, 0 <= w -> rotl w (trunc w a) k = rotl w a k.
Proof. intros. unfold rotl, U. fold (trunc w a). fold (trunc w (trunc w a)). rewrite trunc_trunc by lia. reflexivity. Qed.
Lemma mod_opp_congr : forall w a b, w <> 0 -> a mod w = b mod w -> (- a) mod w = (- b) mod w.
Proof.
  intros w a b W E. rewrite <- (Z.sub_0_l a), <- (Z.sub_0_l b).
  rewrite (Zminus_mod 0 a), (Zminus_mod 0 b), E. reflexivity.
Qed.

(** ** Single bits *)
Lemma testbit_pow2 : forall k j, 0 <= k -> 0 <= j -> Z.testbit (2^k) j = (k =? j).
Proof. intros. rewrite Z.pow2_bits_eqb by lia. reflexivity. Qed.
Lemma pow2_inr : forall w k, 0 <= k < w -> inr w (2^k).
Proof. intros. split; [pose proof (pow2_pos k); lia|apply Z.pow_lt_mono_r; lia]. Qed.
Lemma lor_disjoint : forall a b, Z.land a b = 0 -> Z.lor a b = a + b.
Proof. intros. rewrite <- Z.lxor_lor by assumption. symmetry. apply Z.add_nocarry_lxor. assumption. Qed.
Lemma bset_val : forall a k, 0 <= k -> Z.lor a (2^k) = if Z.testbit a k then a else a + 2^k.
Proof.
  intros a k K. destruct (Z.testbit a k) eqn:T.
  - apply Z.bits_inj'. intros j J. rewrite Z.lor_spec, testbit_pow2 by lia.
    destruct (k =? j) eqn:E; [apply Z.eqb_eq in E; subst; rewrite T; reflexivity|apply orb_false_r].
  - apply lor_disjoint. apply Z.bits_inj'. intros j J. rewrite Z.land_spec, testbit_pow2, Z.bits_0 by lia.
    destruct (k =? j) eqn:E; [apply Z.eqb_eq in E; subst; rewrite T; reflexivity|apply andb_false_r].
Qed.
Lemma binv_val : forall a k, 0 <= k -> Z.lxor a (2^k) = if Z.testbit a k then a - 2^k else a + 2^k.
Proof.
  intros a k K. destruct (Z.testbit a k) eqn:T.
  - rewrite Z.sub_nocarry_ldiff.
    + apply Z.bits_inj'. intros j J. rewrite Z.lxor_spec, Z.ldiff_spec, testbit_pow2 by lia.
      destruct (k =? j) eqn:E; [apply Z.eqb_eq in E; subst; rewrite T; reflexivity|].
      rewrite xorb_false_r, andb_true_r. reflexivity.
    + apply Z.bits_inj'. intros j J. rewrite Z.ldiff_spec, testbit_pow2, Z.bits_0 by lia.
      destruct (k =? j) eqn:E; [apply Z.eqb_eq in E; subst; rewrite T; reflexivity|reflexivity].
  - rewrite Z.add_nocarry_lxor; [reflexivity|]. apply Z.bits_inj'. intros j J.
    rewrite Z.land_spec, testbit_pow2, Z.bits_0 by lia.
    destruct (k =? j) eqn:E; [apply Z.eqb_eq in E; subst; rewrite T; reflexivity|apply andb_false_r].
Qed.
Lemma bclr_val : forall w a k, 0 <= k < w -> inr w a ->
  Z.land a (Z.lxor (2^k) (trunc w (-1))) = if Z.testbit a k then a - 2^k else a.
Proof.
  intros w a k K A.
  assert (O : trunc w (-1) = Z.ones w) by (rewrite trunc_m1, Z.ones_equiv by lia; lia).
  rewrite O. destruct (Z.testbit a k) eqn:T.
  - rewrite Z.sub_nocarry_ldiff.
    + apply Z.bits_inj'. intros j J. rewrite Z.land_spec, Z.lxor_spec, Z.ldiff_spec, testbit_pow2, testbit_ones by lia.
      destruct (j <? w) eqn:E; [rewrite xorb_true_r; reflexivity|].
      rewrite (testbit_inr_high w a j) by (assumption || lia). reflexivity.
    + apply Z.bits_inj'. intros j J. rewrite Z.ldiff_spec, testbit_pow2, Z.bits_0 by lia.
      destruct (k =? j) eqn:E; [apply Z.eqb_eq in E; subst; rewrite T; reflexivity|reflexivity].
  - apply Z.bits_inj'. intros j J. rewrite Z.land_spec, Z.lxor_spec, testbit_pow2, testbit_ones by lia.
    destruct (j <? w) eqn:E.
    + destruct (k =? j) eqn:E2; [apply Z.eqb_eq in E2; subst; rewrite T; reflexivity|rewrite andb_true_r; reflexivity].
    + rewrite (testbit_inr_high w a j) by (assumption || lia). reflexivity.
Qed.
Lemma bext_val : forall a k, 0 <= k -> Z.land (Z.shiftr a k) 1 = bool_z (Z.testbit a k).
Proof.
  intros. change 1 with (2^1 - 1) at 1. rewrite land_mask by lia. change (2^1) with 2. rewrite Zmod_odd, <- Z.bit0_odd.
  rewrite Z.shiftr_spec, Z.add_0_l by lia. reflexivity.
Qed.

(** Two's-complement complement inside [w] bits. *)
Lemma lxor_m1 : forall w b, 0 <= w -> inr w b -> Z.lxor b (trunc w (-1)) = trunc w (Z.lnot b).
Proof.
  intros w b W B. rewrite trunc_m1 by lia. replace (2^w - 1) with (Z.ones w) by (rewrite Z.ones_equiv; lia).
  change (Z.lxor b (Z.ones w)) with (bnot w b). rewrite bnot_val by assumption.
  unfold Z.lnot. replace (2^w - 1 - b) with (-b - 1 + 1 * 2^w) by lia.
  replace (Z.pred (-b)) with (-b - 1) by lia. unfold trunc. rewrite <- (Z_mod_plus_full (-b-1) 1).
  symmetry. apply Z.mod_small. unfold inr in B. lia.
Qed.
Lemma trunc_land : forall w a b, 0 <= w -> trunc w (Z.land a b) = Z.land (trunc w a) (trunc w b).
Proof.
  intros. apply Z.bits_inj'. intros j J. rewrite Z.land_spec, !testbit_trunc, Z.land_spec by lia.
  destruct (j <? w); reflexivity.
Qed.
Lemma trunc_lor : forall w a b, 0 <= w -> trunc w (Z.lor a b) = Z.lor (trunc w a) (trunc w b).
Proof.
  intros. apply Z.bits_inj'. intros j J. rewrite Z.lor_spec, !testbit_trunc, Z.lor_spec by lia.
  destruct (j <? w); reflexivity.
Qed.
Lemma trunc_lxor : forall w a b, 0 <= w -> trunc w (Z.lxor a b) = Z.lxor (trunc w a) (trunc w b).
Proof.
  intros. apply Z.bits_inj'. intros j J. rewrite Z.lxor_spec, !testbit_trunc, Z.lxor_spec by lia.
  destruct (j <? w); reflexivity.
Qed.

(** ** Byte permutations *)
Lemma lane_byte : forall a k, 0 <= k -> lane 8 a k = byte a k.
Proof.
  intros. unfold lane, byte, trunc. rewrite Z.shiftr_div_pow2 by lia. change 256 with (2^8) at 1.
  rewrite <- Z.pow_mul_r by lia. reflexivity.
Qed.
Lemma lanes8_bytes : forall a, lanes 8 8 a =
  [byte a 0; byte a 1; byte a 2; byte a 3; byte a 4; byte a 5; byte a 6; byte a 7].
Proof.
  intros a. unfold lanes. change (Z.to_nat 8) with 8%nat. cbn [lanes_from].
  rewrite !lane_byte by lia. reflexivity.
Qed.
Lemma bytes8_unfold : forall f, bytes8 f 8 = 0 + f 0 + f 1 + f 2 + f 3 + f 4 + f 5 + f 6 + f 7.
Proof. intros. reflexivity. Qed.
Lemma bswap_rev8 : forall a, bswap_sem 64 a = rev8 a.
Proof.
  intros a. unfold bswap_sem. replace (64/8) with 8 by reflexivity. rewrite lanes8_bytes.
  unfold rev8. rewrite bytes8_unfold. cbn [rev app unlanes].
  generalize (byte a 0) (byte a 1) (byte a 2) (byte a 3) (byte a 4) (byte a 5) (byte a 6) (byte a 7).
  intros b0 b1 b2 b3 b4 b5 b6 b7. cbn beta.
  replace (256 ^ (7 - 0)) with 72057594037927936 by reflexivity.
  replace (256 ^ (7 - 1)) with 281474976710656 by reflexivity.
  replace (256 ^ (7 - 2)) with 1099511627776 by reflexivity.
  replace (256 ^ (7 - 3)) with 4294967296 by reflexivity.
  replace (256 ^ (7 - 4)) with 16777216 by reflexivity.
  replace (256 ^ (7 - 5)) with 65536 by reflexivity.
  replace (256 ^ (7 - 6)) with 256 by reflexivity.
  replace (256 ^ (7 - 7)) with 1 by reflexivity.
  replace (2^8) with 256 by reflexivity. lia.
Qed.

(** ** Carry-less product *)
Lemma clprod_bit : forall n a b, 0 <= a -> 0 <= clprod a b n.
Proof.
  induction n; intros a b A; cbn [clprod]; [lia|]. apply Z.lxor_nonneg. split; intro; [|apply IHn; assumption].
  destruct (Z.testbit b (Z.of_nat n)); [|lia]. pose proof (pow2_pos (Z.of_nat n)). nia.
Qed.
