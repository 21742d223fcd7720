(** Arithmetic facts about the AArch64 lifter's expressions (no lifter, no IR). *)

From Coq Require Import ZArith Lia ZifyBool List Bool.
From Verif Require Import Bits IR Rv64Spec Rv64Sim Rv64Arith X86Spec X86Arith A64 A64Spec.
Import ListNotations.
Open Scope Z_scope.
Ltac Zify.zify_post_hook ::= Z.div_mod_to_equations.

Lemma ones_m1 : forall w, 0 <= w -> trunc w (-1) = Z.ones w.
Proof. intros. rewrite trunc_m1, Z.ones_equiv by assumption. lia. Qed.
Lemma knot_ok : forall w b, 0 <= w -> inr w b -> Z.lxor b (trunc w (-1)) = knot w b.
Proof. intros w b W B. rewrite ones_m1 by assumption. apply (bnot_val w b W B). Qed.
Lemma knot_inr : forall w b, inr w b -> inr w (knot w b).
Proof. intros w b [B1 B2]. unfold inr, knot. lia. Qed.
Lemma S_inr : forall w y, inr w y -> S_ w y = if y <? 2^(w-1) then y else y - 2^w.
Proof. intros w y Y. unfold S_. fold (trunc w y). rewrite (trunc_small w y Y). reflexivity. Qed.
Lemma S_knot : forall w y, 0 < w -> inr w y -> S_ w (knot w y) = - S_ w y - 1.
Proof.
  intros w y W Y. rewrite !S_inr by (assumption || apply knot_inr; assumption). unfold knot, inr in *.
  rewrite (pow2_succ w) in * by lia. set (m := 2^(w-1)) in *. clearbody m.
  destruct (Z.ltb_spec y m), (Z.ltb_spec (2 * m - 1 - y) m); lia.
Qed.

(** ** AddWithCarry *)
Lemma awc_v : forall w r ss, 0 < w -> trunc w ss = r -> negb (S_ w r =? ss) = s_out w ss.
Proof.
  intros w r ss W E. subst r. rewrite (S_congr w (trunc w ss) ss) by (apply trunc_trunc; lia).
  pose proof (S_range w ss W) as R. unfold s_out. destruct (Z.eqb_spec (S_ w ss) ss) as [Q|Q].
  - rewrite Q in R. destruct (Z.leb_spec (- 2^(w-1)) ss), (Z.ltb_spec ss (2^(w-1))); first [reflexivity|lia].
  - destruct (Z.leb_spec (- 2^(w-1)) ss), (Z.ltb_spec ss (2^(w-1))); try reflexivity.
    exfalso. apply Q. apply S_id; lia.
Qed.
Lemma trunc_S_add : forall w x y k, 0 < w -> trunc w (S_ w x + S_ w y + k) = trunc w (x + y + k).
Proof.
  intros. replace (S_ w x + S_ w y + k) with (S_ w x + (S_ w y + k)) by lia.
  rewrite <- (trunc_add_l w (S_ w x)), trunc_S, trunc_add_l by lia. replace (x + (S_ w y + k)) with (S_ w y + (x + k)) by lia.
  rewrite <- (trunc_add_l w (S_ w y)), trunc_S, trunc_add_l by lia. f_equal. lia.
Qed.
Lemma awc_c : forall w us, 0 <= w -> 0 <= us -> negb (trunc w us =? us) = (2^w <=? us).
Proof.
  intros w us W P. pose proof (trunc_range w us W) as [A B]. destruct (Z.leb_spec (2^w) us).
  - destruct (Z.eqb_spec (trunc w us) us); [exfalso; lia|reflexivity].
  - rewrite trunc_small by (split; assumption). rewrite Z.eqb_refl. reflexivity.
Qed.
(** General shape. *)
Lemma awc_gen : forall w x y ci, 0 < w -> inr w x -> inr w y ->
  awc w x y ci = (trunc w (x + y + bool_z ci),
    nzcv (Z.testbit (trunc w (x + y + bool_z ci)) (w - 1)) (trunc w (x + y + bool_z ci) =? 0)
         (2^w <=? x + y + bool_z ci) (s_out w (S_ w x + S_ w y + bool_z ci))).
Proof.
  intros w x y ci W X Y. unfold awc. change U with trunc. f_equal. f_equal.
  - apply awc_c; [lia|]. unfold inr, bool_z in *. destruct ci; lia.
  - apply awc_v; [assumption|]. apply trunc_S_add. assumption.
Qed.
Lemma awc_add : forall w x y, 0 < w -> inr w x -> inr w y ->
  awc w x y false = (trunc w (x + y),
    nzcv (Z.testbit (trunc w (x + y)) (w - 1)) (trunc w (x + y) =? 0) (2^w <=? x + y) (s_out w (sgn w x + sgn w y))).
Proof. intros w x y W X Y. rewrite awc_gen by assumption. unfold bool_z. rewrite !Z.add_0_r, !S_small by assumption. reflexivity. Qed.
Lemma awc_sub : forall w x y, 0 < w -> inr w x -> inr w y ->
  awc w x (knot w y) true = (trunc w (x - y),
    nzcv (Z.testbit (trunc w (x - y)) (w - 1)) (x =? y) (y <=? x) (s_out w (sgn w x - sgn w y))).
Proof.
  intros w x y W X Y. rewrite awc_gen by (assumption || apply knot_inr; assumption). unfold bool_z.
  rewrite S_knot by assumption. rewrite !S_small by assumption.
  assert (E : trunc w (x + knot w y + 1) = trunc w (x - y)).
  { unfold knot. replace (x + (2 ^ w - 1 - y) + 1) with ((x - y) + 1 * 2^w) by lia. unfold trunc.
    apply Z.mod_add. pose proof (pow2_pos w). lia. }
  rewrite E. f_equal.
  replace (sgn w x + (- sgn w y - 1) + 1) with (sgn w x - sgn w y) by lia.
  f_equal.
  - rewrite trunc_sub_cases by (assumption || lia). unfold inr in *. destruct (Z.ltb_spec x y); lia.
  - unfold knot. lia.
Qed.

(** ** Bitfields *)
Lemma ones_val : forall n, 0 <= n <= 64 -> ones n = 2^n - 1.
Proof. intros n N. unfold ones. destruct (Z.leb_spec 64 n); [|reflexivity]. replace n with 64 by lia. reflexivity. Qed.
Lemma ones_bit : forall n j, 0 <= n <= 64 -> 0 <= j -> Z.testbit (ones n) j = (j <? n).
Proof.
  intros n j N J. rewrite ones_val by assumption. replace (2^n - 1) with (Z.ones n) by (rewrite Z.ones_equiv; lia).
  apply testbit_ones; lia.
Qed.
Lemma ones_inr_w : forall w n, 0 <= n <= w -> w <= 64 -> inr w (ones n).
Proof.
  intros w n N W. rewrite ones_val by lia. apply (inr_le n); [lia|]. pose proof (pow2_pos n). unfold inr. lia.
Qed.
Lemma land_ones : forall w x n, 0 <= n <= w -> w <= 64 -> Z.land x (trunc w (ones n)) = trunc n x.
Proof. intros w x n N W. rewrite trunc_small by (apply ones_inr_w; assumption). rewrite ones_val by lia. apply land_mask. lia. Qed.
Lemma extract_val : forall w n lsb wd, 0 <= lsb -> 0 <= wd <= w -> w <= 64 ->
  Z.land (Z.shiftr n lsb) (trunc w (ones wd)) = trunc wd (n / 2^lsb).
Proof. intros w n lsb wd L Wd W. rewrite land_ones by assumption. rewrite shr_val by assumption. reflexivity. Qed.
Lemma move_val : forall w n lsb wd, 0 <= lsb -> 0 <= wd <= w -> w <= 64 ->
  trunc w (Z.shiftl (Z.land n (trunc w (ones wd))) lsb) = trunc w (trunc wd n * 2^lsb).
Proof. intros w n lsb wd L Wd W. rewrite land_ones by assumption. rewrite Z.shiftl_mul_pow2 by assumption. reflexivity. Qed.
Lemma field_inr : forall w lsb wd x, 0 <= lsb -> 0 <= wd -> lsb + wd <= w -> inr wd x -> inr w (x * 2^lsb).
Proof.
  intros w lsb wd x L Wd W [X1 X2]. apply (inr_le (wd + lsb)); [lia|]. pose proof (pow2_pos lsb L). split; [lia|].
  rewrite Z.pow_add_r by lia. apply Z.mul_lt_mono_pos_r; assumption.
Qed.
(** The sign-extending select of SBFX/SBFIZ. *)
Lemma sext_select : forall w k f, 0 <= k < w -> 0 <= f < 2^(k+1) ->
  (if Z.land f (trunc w (- 2^k)) =? 0 then f else Z.lor f (trunc w (- 2^k))) = trunc w (S_ (k+1) f).
Proof.
  intros w k f K F.
  assert (MB : forall j, 0 <= j < w -> Z.testbit (trunc w (- 2^k)) j = negb (j <? k)).
  { intros j J. rewrite trunc_low_bits by lia. replace (- 2^k) with (Z.lnot (2^k - 1)) by (unfold Z.lnot; lia).
    rewrite Z.lnot_spec by lia. replace (2^k - 1) with (Z.ones k) by (rewrite Z.ones_equiv; lia). rewrite testbit_ones by lia. reflexivity. }
  assert (FI : inr (k + 1) f) by exact F.
  rewrite S_inr by assumption. replace (k + 1 - 1) with k by lia.
  destruct (Z.ltb_spec f (2^k)) as [L|L].
  - replace (Z.land f (trunc w (- 2^k))) with 0.
    + cbn [Z.eqb]. rewrite trunc_small; [reflexivity|]. apply (inr_le (k+1)); [lia|assumption].
    + symmetry. apply Z.bits_inj'. intros j J. rewrite Z.land_spec, Z.bits_0. destruct (Z.ltb_spec j w).
      * rewrite MB by lia. destruct (Z.ltb_spec j k); [apply andb_false_r|].
        rewrite (testbit_inr_high k f j); [reflexivity|lia|split; lia|lia].
      * rewrite (testbit_inr_high (k+1) f j); [reflexivity|lia|assumption|lia].
  - assert (T : Z.testbit f k = true).
    { pose proof (sgn_neg_testbit (k+1) f ltac:(lia) FI) as Q. replace (k + 1 - 1) with k in Q by lia. rewrite <- Q.
      unfold sgn. replace (k + 1 - 1) with k by lia. destruct (Z.ltb_spec f (2^k)); [lia|]. unfold inr in FI. lia. }
    destruct (Z.eqb_spec (Z.land f (trunc w (- 2^k))) 0) as [E|E].
    + exfalso. assert (Q : Z.testbit (Z.land f (trunc w (- 2^k))) k = false) by (rewrite E; apply Z.bits_0).
      rewrite Z.land_spec, T, MB in Q by lia. rewrite Z.ltb_irrefl in Q. discriminate.
    + change (f - 2^(k+1)) with (f - 2^(k+1)). apply (bits_eq w); [lia| |apply trunc_range; lia|].
      * apply lor_inr; [lia|apply (inr_le (k+1)); [lia|assumption]|apply trunc_range; lia].
      * intros j J. rewrite Z.lor_spec, MB, trunc_low_bits by lia.
        assert (Q : f - 2^(k+1) = sgn (k+1) f). { unfold sgn. replace (k + 1 - 1) with k by lia. destruct (Z.ltb_spec f (2^k)); lia. }
        rewrite Q, testbit_sgn by (assumption || lia). replace (k + 1 - 1) with k by lia. rewrite T.
        destruct (Z.ltb_spec j k); cbn [negb]; [rewrite orb_false_r; destruct (Z.ltb_spec j (k+1)); [reflexivity|lia]|].
        rewrite orb_true_r. destruct (Z.ltb_spec j (k+1)); [|reflexivity]. replace j with k by lia. symmetry. assumption.
Qed.
Lemma S_scale : forall wd lsb x, 0 < wd -> 0 <= lsb -> inr wd x -> S_ (lsb + wd) (x * 2^lsb) = S_ wd x * 2^lsb.
Proof.
  intros wd lsb x W L X. rewrite (S_inr wd x X). rewrite S_inr by (apply (field_inr _ lsb wd); (assumption || lia)).
  replace (lsb + wd - 1) with ((wd - 1) + lsb) by lia. replace (lsb + wd) with (wd + lsb) by lia. rewrite !Z.pow_add_r by lia.
  pose proof (pow2_pos lsb L) as P. destruct (Z.ltb_spec x (2^(wd-1))) as [C|C], (Z.ltb_spec (x * 2^lsb) (2^(wd-1) * 2^lsb)) as [D|D]; try lia.
  - exfalso. apply Z.mul_lt_mono_pos_r with (p := 2^lsb) in C; lia.
  - exfalso. apply Z.mul_lt_mono_pos_r in D; lia.
Qed.
(** Clearing a field. *)
Lemma clear_val : forall w d lsb wd, 0 <= lsb -> 0 <= wd -> lsb + wd <= w -> w <= 64 -> inr w d ->
  Z.land d (trunc w (Z.lnot (ones wd * 2^lsb))) = d - trunc wd (d / 2^lsb) * 2^lsb.
Proof.
  intros w d lsb wd L Wd W W64 D.
  assert (E : d = Z.lor (Z.land d (trunc w (Z.lnot (ones wd * 2^lsb)))) (trunc wd (d / 2^lsb) * 2^lsb)).
  { apply Z.bits_inj'. intros j J. rewrite Z.lor_spec, Z.land_spec, testbit_trunc, Z.lnot_spec by lia.
    rewrite <- !Z.shiftl_mul_pow2 by lia. rewrite !Z.shiftl_spec by lia.
    destruct (Z.ltb_spec j w); [|rewrite (testbit_inr_high w d j) by (assumption || lia); cbn [andb orb]].
    - cbn [andb]. destruct (Z.ltb_spec j lsb).
      + rewrite !(Z.testbit_neg_r _ (j - lsb)) by lia. cbn [negb]. rewrite andb_true_r, orb_false_r. reflexivity.
      + rewrite ones_bit, testbit_trunc by lia. rewrite <- shr_val, Z.shiftr_spec by lia. replace (j - lsb + lsb) with j by lia.
        destruct (j - lsb <? wd), (Z.testbit d j); reflexivity.
    - rewrite testbit_trunc by lia. destruct (Z.ltb_spec (j - lsb) wd); [lia|reflexivity]. }
  rewrite lor_disjoint in E; [lia|].
  apply Z.bits_inj'. intros j J. rewrite !Z.land_spec, testbit_trunc, Z.lnot_spec, Z.bits_0 by lia.
  rewrite <- !Z.shiftl_mul_pow2 by lia. rewrite !Z.shiftl_spec by lia. destruct (Z.ltb_spec j lsb).
  - rewrite !(Z.testbit_neg_r _ (j - lsb)) by lia. apply andb_false_r.
  - rewrite ones_bit, testbit_trunc by lia. destruct (j - lsb <? wd), (j <? w), (Z.testbit d j); reflexivity.
Qed.
(** Inserting into a cleared field. *)
Lemma insert_val : forall w d lsb wd x, 0 <= lsb -> 0 <= wd -> lsb + wd <= w -> w <= 64 -> inr w d -> inr wd x ->
  Z.lor (x * 2^lsb) (d - trunc wd (d / 2^lsb) * 2^lsb) = d - trunc wd (d / 2^lsb) * 2^lsb + x * 2^lsb.
Proof.
  intros w d lsb wd x L Wd W W64 D X. rewrite lor_disjoint; [lia|]. rewrite <- (clear_val w) by assumption.
  apply Z.bits_inj'. intros j J. rewrite !Z.land_spec, testbit_trunc, Z.lnot_spec, Z.bits_0 by lia.
  rewrite <- !Z.shiftl_mul_pow2 by lia. rewrite !Z.shiftl_spec by lia. destruct (Z.ltb_spec j lsb).
  - rewrite !(Z.testbit_neg_r _ (j - lsb)) by lia. reflexivity.
  - rewrite ones_bit by lia. destruct (Z.ltb_spec (j - lsb) wd).
    + cbn [negb]. rewrite !andb_false_r. reflexivity.
    + rewrite (testbit_inr_high wd x) by (assumption || lia). reflexivity.
Qed.
Lemma insert_inr : forall w d lsb wd x, 0 <= lsb -> 0 <= wd -> lsb + wd <= w -> w <= 64 -> inr w d -> inr wd x ->
  inr w (d - trunc wd (d / 2^lsb) * 2^lsb + x * 2^lsb).
Proof.
  intros. rewrite <- (insert_val w) by assumption. apply lor_inr; [lia|eapply field_inr; eauto; lia|].
  rewrite <- (clear_val w) by assumption. apply land_inr_l; [lia|assumption].
Qed.
Lemma clear_inr : forall w d lsb wd, 0 <= lsb -> 0 <= wd -> lsb + wd <= w -> w <= 64 -> inr w d ->
  inr w (d - trunc wd (d / 2^lsb) * 2^lsb).
Proof. intros. rewrite <- (clear_val w) by assumption. apply land_inr_l; [lia|assumption]. Qed.

(** ** EXTR *)
Lemma extr_val : forall w n m k, 0 < w <= 64 -> inr w n -> inr w m -> 0 <= k ->
  trunc w (Z.land (Z.shiftr (Z.lor (trunc (2 * w) (Z.shiftl n w)) m) k) (trunc (2 * w) (ones w))) = trunc w ((n * 2^w + m) / 2^k).
Proof.
  intros w n m k W N M K.
  rewrite (trunc_small (2*w) (ones w)) by (apply (inr_le w); [lia|apply ones_inr_w; lia]).
  rewrite ones_val, land_mask by lia. fold (trunc w (Z.shiftr (Z.lor (trunc (2 * w) (Z.shiftl n w)) m) k)).
  rewrite trunc_trunc by lia. f_equal. rewrite shr_val by lia. f_equal.
  rewrite trunc_small; [apply shl_lor; [lia|assumption]|]. rewrite Z.shiftl_mul_pow2 by lia. apply (field_inr _ w w); (assumption || lia).
Qed.

(** ** Reversal and counting *)
Lemma rbit_snoc : forall n a, rbit (S n) a = b2z (Z.testbit a (Z.of_nat n)) + 2 * rbit n a.
Proof.
  induction n; intros a.
  - cbn [rbit]. change (Z.of_nat 0) with 0. rewrite bit0_b2z. lia.
  - change (rbit (S (S n)) a) with ((a mod 2) * 2 ^ Z.of_nat (S n) + rbit (S n) (a / 2)). rewrite IHn.
    change (rbit (S n) a) with ((a mod 2) * 2 ^ Z.of_nat n + rbit n (a / 2)).
    replace (2 ^ Z.of_nat (S n)) with (2 * 2 ^ Z.of_nat n) by (rewrite Nat2Z.inj_succ, Z.pow_succ_r by lia; reflexivity).
    replace (Z.testbit (a/2) (Z.of_nat n)) with (Z.testbit a (Z.of_nat (S n))).
    2: { change 2 with (2^1). rewrite <- shr_val, Z.shiftr_spec by lia. f_equal. lia. }
    lia.
Qed.
Lemma bitrev_ok : forall n a w, Z.of_nat n <= w -> bitrev_nat a w n = rbit n a * 2^(w - Z.of_nat n).
Proof.
  induction n; intros a w L; [reflexivity|]. cbn [bitrev_nat]. rewrite IHn, rbit_snoc by lia.
  replace (w - Z.of_nat n) with (Z.succ (w - Z.of_nat (S n))) by lia. rewrite Z.pow_succ_r by lia.
  replace (w - 1 - Z.of_nat n) with (w - Z.of_nat (S n)) by lia. ring.
Qed.
Lemma rbit_inr : forall n a, inr (Z.of_nat n) (rbit n a).
Proof.
  induction n; intros a; [split; reflexivity || (cbn; lia)|]. rewrite rbit_snoc. specialize (IHn a). unfold inr in *.
  rewrite Nat2Z.inj_succ, Z.pow_succ_r by lia. destruct (Z.testbit a (Z.of_nat n)); cbn [b2z]; lia.
Qed.
Lemma clz_lead : forall n b a s, (forall j, 0 <= j < Z.of_nat n -> Z.testbit b j = xorb (Z.testbit a j) s) -> clz n b = lead n a s.
Proof.
  induction n; intros b a s B; [reflexivity|]. cbn [clz lead]. rewrite (B (Z.of_nat n)) by lia.
  rewrite (IHn b a s) by (intros; apply B; lia). destruct (Z.testbit a (Z.of_nat n)), s; reflexivity.
Qed.
Lemma lead_range : forall n a s, 0 <= lead n a s <= Z.of_nat n.
Proof. induction n; intros; cbn [lead]; [lia|]. specialize (IHn a s). destruct (Bool.eqb _ _); lia. Qed.
Lemma cls_val : forall w a, 0 < w -> inr w a ->
  clz (Z.to_nat w) (Z.lxor a (trunc w (Z.shiftr (sgn w a) (w - 1)))) - 1 = lead (Z.to_nat (w - 1)) a (Z.testbit a (w - 1)).
Proof.
  intros w a W A. replace (Z.to_nat w) with (S (Z.to_nat (w - 1))) by lia. cbn [clz].
  assert (T : forall j, 0 <= j < w -> Z.testbit (Z.lxor a (trunc w (Z.shiftr (sgn w a) (w - 1)))) j = xorb (Z.testbit a j) (Z.testbit a (w - 1))).
  { intros j J. rewrite Z.lxor_spec, trunc_low_bits, Z.shiftr_spec, testbit_sgn by (assumption || lia). f_equal.
    destruct (Z.ltb_spec (j + (w - 1)) w); [|reflexivity]. f_equal. lia. }
  rewrite T by lia. replace (Z.of_nat (Z.to_nat (w - 1))) with (w - 1) by lia. rewrite xorb_nilpotent.
  rewrite (clz_lead _ _ a (Z.testbit a (w - 1))); [lia|]. intros j J. apply T. lia.
Qed.

Lemma lanes16_2 : forall a, lanes 2 16 a = [lane 16 a 0; lane 16 a 1]. Proof. reflexivity. Qed.
Lemma bswap16_lane : forall a k, 0 <= k -> bswap_sem 16 (lane 16 a k) = byte a (2 * k + 1) + 256 * byte a (2 * k).
Proof.
  intros a k K. unfold bswap_sem, lanes. change (Z.to_nat (16/8)) with 2%nat. cbn [lanes_from rev app unlanes].
  rewrite !lane_byte by lia. change (2^8) with 256. rewrite Z.mul_0_r, Z.add_0_r.
  assert (B : forall j, 0 <= j < 2 -> byte (lane 16 a k) j = byte a (2 * k + j)).
  { intros j J. rewrite <- !lane_byte by lia. unfold lane. apply (bits_eq 8); try lia; try (apply trunc_range; lia).
    intros t T. rewrite !trunc_low_bits, !Z.shiftr_spec, trunc_low_bits, Z.shiftr_spec by lia. f_equal. lia. }
  rewrite !B by lia. rewrite (Z.add_0_r (2 * k)). reflexivity.
Qed.
Lemma bswap32_lane : forall a k, 0 <= k -> bswap_sem 32 (lane 32 a k) =
  byte a (4 * k + 3) + 256 * byte a (4 * k + 2) + 65536 * byte a (4 * k + 1) + 16777216 * byte a (4 * k).
Proof.
  intros a k K. unfold bswap_sem, lanes. change (Z.to_nat (32/8)) with 4%nat. cbn [lanes_from rev app unlanes].
  rewrite !lane_byte by lia. change (2^8) with 256.
  assert (B : forall j, 0 <= j < 4 -> byte (lane 32 a k) j = byte a (4 * k + j)).
  { intros j J. rewrite <- !lane_byte by lia. unfold lane. apply (bits_eq 8); try lia; try (apply trunc_range; lia).
    intros t T. rewrite !trunc_low_bits, !Z.shiftr_spec, trunc_low_bits, Z.shiftr_spec by lia. f_equal. lia. }
  rewrite !B by lia. rewrite (Z.add_0_r (4 * k)). replace (0 + 1) with 1 by lia. replace (1 + 1) with 2 by lia. replace (2 + 1) with 3 by lia. ring.
Qed.
Ltac cz a :=
  repeat match goal with |- context [Z.of_nat ?n] => let v := eval vm_compute in (Z.of_nat n) in change (Z.of_nat n) with v end;
  repeat match goal with |- context [byte a ?e] =>
    lazymatch e with Z0 => fail | Zpos _ => fail | _ => let v := eval vm_compute in e in change (byte a e) with (byte a v) end end;
  repeat match goal with |- context [Z.pow ?b ?e] => let v := eval vm_compute in (Z.pow b e) in change (Z.pow b e) with v end.
Lemma rev_bytes_sum : forall b w a, (w = 32 \/ w = 64) -> (b = 2 \/ b = 4 \/ b = 8 /\ w = 64) ->
  rev_in b w a =
  match Z.to_nat b with
  | 2%nat => unlanes 16 (map (bswap_sem 16) (lanes (w/16) 16 a))
  | 4%nat => unlanes 32 (map (bswap_sem 32) (lanes (w/32) 32 a))
  | _ => bswap_sem 64 a
  end.
Proof.
  intros b w a W B. destruct W as [->| ->]; destruct B as [->|[->|[-> Q]]]; try discriminate Q.
  - change (Z.to_nat 2) with 2%nat. cbn [map lanes]. unfold lanes. change (Z.to_nat (32/16)) with 2%nat. cbn [lanes_from map unlanes].
    rewrite !bswap16_lane by lia. unfold rev_in. change (Z.to_nat (32/8)) with 4%nat. cbn [bytes8]. cz a. generalize (byte a 0) (byte a 1) (byte a 2) (byte a 3). intros. lia.
  - change (Z.to_nat 4) with 4%nat. unfold lanes. change (Z.to_nat (32/32)) with 1%nat. cbn [lanes_from map unlanes].
    rewrite !bswap32_lane by lia. unfold rev_in. change (Z.to_nat (32/8)) with 4%nat. cbn [bytes8]. cz a. generalize (byte a 0) (byte a 1) (byte a 2) (byte a 3). intros. lia.
  - change (Z.to_nat 2) with 2%nat. unfold lanes. change (Z.to_nat (64/16)) with 4%nat. cbn [lanes_from map unlanes].
    rewrite !bswap16_lane by lia. unfold rev_in. change (Z.to_nat (64/8)) with 8%nat. cbn [bytes8]. cz a.
    generalize (byte a 0) (byte a 1) (byte a 2) (byte a 3) (byte a 4) (byte a 5) (byte a 6) (byte a 7). intros. lia.
  - change (Z.to_nat 4) with 4%nat. unfold lanes. change (Z.to_nat (64/32)) with 2%nat. cbn [lanes_from map unlanes].
    rewrite !bswap32_lane by lia. unfold rev_in. change (Z.to_nat (64/8)) with 8%nat. cbn [bytes8]. cz a.
    generalize (byte a 0) (byte a 1) (byte a 2) (byte a 3) (byte a 4) (byte a 5) (byte a 6) (byte a 7). intros. lia.
  - change (Z.to_nat 8) with 8%nat. cbv iota. unfold bswap_sem, lanes. change (Z.to_nat (64/8)) with 8%nat. cbn [lanes_from rev app unlanes].
    rewrite !lane_byte by lia. unfold rev_in. change (Z.to_nat (64/8)) with 8%nat. cbn [bytes8]. cz a.
    generalize (byte a 0) (byte a 1) (byte a 2) (byte a 3) (byte a 4) (byte a 5) (byte a 6) (byte a 7). intros. lia.
Qed.
