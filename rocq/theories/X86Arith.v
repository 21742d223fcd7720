(** Arithmetic facts used by the x86-64 proofs. *)

From Coq Require Import ZArith Lia ZifyBool List Bool.
From Verif Require Import Bits IR Rv64Spec Rv64Sim Rv64Arith X86 X86Spec.
Import ListNotations.
Open Scope Z_scope.
Ltac Zify.zify_post_hook ::= Z.div_mod_to_equations.

Lemma shl_lor : forall w x z, 0 <= w -> inr w z -> Z.lor (Z.shiftl x w) z = x * 2^w + z.
Proof.
  intros w x z W Zr. rewrite lor_disjoint; [rewrite Z.shiftl_mul_pow2 by lia; reflexivity|].
  apply Z.bits_inj'. intros i I. rewrite Z.land_spec, Z.bits_0. destruct (Z.ltb_spec i w).
  - rewrite Z.shiftl_spec_low by assumption. reflexivity.
  - rewrite (testbit_inr_high w z) by (assumption || lia). apply andb_false_r.
Qed.
Lemma merge_val : forall w o z, 0 <= w <= 64 -> inr 64 o -> inr w z ->
  Z.lor (Z.land o (Z.lxor (Z.ones 64) (Z.ones w))) z = o - o mod 2^w + z.
Proof.
  intros w o z W O Zr. replace (o - o mod 2^w) with ((o / 2^w) * 2^w).
  2: { pose proof (pow2_pos w ltac:(lia)). pose proof (Z.div_mod o (2^w) ltac:(lia)). lia. }
  rewrite <- shl_lor by (assumption || lia). f_equal. rewrite <- Z.shiftr_div_pow2 by lia.
  apply Z.bits_inj'. intros i I. rewrite Z.land_spec, Z.lxor_spec, !testbit_ones by lia.
  destruct (Z.ltb_spec i w).
  - rewrite Z.shiftl_spec_low by assumption. replace (i <? 64) with true by lia. apply andb_false_r.
  - rewrite Z.shiftl_spec, Z.shiftr_spec by lia. replace (i - w + w) with i by lia. rewrite xorb_false_r.
    destruct (Z.ltb_spec i 64); [apply andb_true_r|]. rewrite (testbit_inr_high 64 o) by (assumption || lia). reflexivity.
Qed.
Lemma merge_inr : forall w o z, 0 <= w <= 64 -> inr 64 o -> inr w z -> inr 64 (o - o mod 2^w + z).
Proof.
  intros w o z W O Zr. rewrite <- merge_val by assumption. apply lor_inr; [lia| |apply (inr_le w); [lia|assumption]].
  apply land_inr_l; [lia|assumption].
Qed.
Lemma hi_merge : forall o v, inr 64 o -> inr 8 v ->
  Z.lor (trunc 64 (Z.shiftl v 8)) (Z.land o 0xffffffffffff00ff) = o - ((o / 256) mod 256) * 256 + v * 256.
Proof.
  intros o v O Vr. rewrite trunc_small.
  2: { rewrite Z.shiftl_mul_pow2 by lia. unfold inr in *. change (2^8) with 256 in *. change (2^64) with 18446744073709551616. lia. }
  assert (E : Z.land o 0xffffffffffff00ff = (o / 65536) * 65536 + o mod 256).
  { change 65536 with (2^16). rewrite <- shl_lor by (try lia; pose proof (Z.mod_pos_bound o 256 ltac:(lia)); unfold inr; change (2^16) with 65536; lia).
    change 256 with (2^8). change 0xffffffffffff00ff with (Z.lor (Z.shiftl (Z.ones 48) 16) (Z.ones 8)).
    fold (trunc 8 o). rewrite <- Z.shiftr_div_pow2 by lia.
    apply Z.bits_inj'. intros i I. rewrite Z.land_spec, !Z.lor_spec, !testbit_ones by lia. rewrite testbit_trunc by lia.
    destruct (Z.ltb_spec i 16).
    - rewrite !Z.shiftl_spec_low by assumption. cbn [orb]. apply andb_comm.
    - rewrite !Z.shiftl_spec, testbit_ones, Z.shiftr_spec by lia. replace (i - 16 + 16) with i by lia. replace (i <? 8) with false by lia.
      cbn [andb]. rewrite !orb_false_r. destruct (Z.ltb_spec (i - 16) 48); [apply andb_true_r|].
      rewrite (testbit_inr_high 64 o) by (assumption || lia). reflexivity. }
  rewrite E. rewrite lor_disjoint.
  - rewrite Z.shiftl_mul_pow2 by lia. change (2^8) with 256. replace (o / 65536) with (o / 256 / 256) by (rewrite Z.div_div by lia; reflexivity). lia.
  - rewrite <- E. change 0xffffffffffff00ff with (Z.lor (Z.shiftl (Z.ones 48) 16) (Z.ones 8)).
    apply Z.bits_inj'. intros i I. rewrite !Z.land_spec, Z.bits_0, Z.lor_spec, !testbit_ones by lia.
    rewrite Z.shiftl_spec by lia. destruct (Z.ltb_spec i 8).
    + rewrite Z.testbit_neg_r by lia. reflexivity.
    + rewrite orb_false_r. destruct (Z.ltb_spec i 16).
      * rewrite (Z.shiftl_spec_low (Z.ones 48)) by lia. rewrite !andb_false_r. reflexivity.
      * rewrite (testbit_inr_high 8 v) by (assumption || lia). reflexivity.
Qed.
Lemma hi_inr : forall o v, inr 64 o -> inr 8 v -> inr 64 (o - ((o / 256) mod 256) * 256 + v * 256).
Proof. intros o v O Vr. unfold inr in *. change (2^8) with 256 in *. change (2^64) with 18446744073709551616 in *. lia. Qed.

(** ** Flags *)
Lemma cpop_congr : forall n a b, trunc (Z.of_nat n) a = trunc (Z.of_nat n) b -> cpop n a = cpop n b.
Proof.
  intros n a b E. rewrite <- !popcount_cpop. apply popcount_congr. intros j J.
  rewrite <- (trunc_low_bits (Z.of_nat n) a), <- (trunc_low_bits (Z.of_nat n) b) by lia. rewrite E. reflexivity.
Qed.
Lemma pf_congr : forall a b, trunc 8 a = trunc 8 b -> pf_of a = pf_of b.
Proof. intros a b E. unfold pf_of. f_equal. apply cpop_congr. exact E. Qed.
Lemma pf_trunc : forall w a, 8 <= w -> pf_of (trunc w a) = pf_of a.
Proof. intros. apply pf_congr. apply trunc_trunc_le. lia. Qed.
Lemma zf_trunc : forall w a, 0 <= w -> zf_of w (trunc w a) = zf_of w a.
Proof. intros. unfold zf_of. change U with trunc. rewrite trunc_trunc by lia. reflexivity. Qed.
Lemma sf_trunc : forall w a, 0 <= w -> sf_of w (trunc w a) = sf_of w a.
Proof. intros. unfold sf_of. change U with trunc. rewrite trunc_trunc by lia. reflexivity. Qed.
Lemma zf_small : forall w a, inr w a -> zf_of w a = (a =? 0).
Proof. intros. unfold zf_of. change U with trunc. rewrite trunc_small by assumption. reflexivity. Qed.
Lemma sgn_neg : forall w z, 0 < w -> inr w z -> (sgn w z <? 0) = (2^(w-1) <=? z).
Proof.
  intros w z W Zr. unfold sgn, inr in *. rewrite (pow2_succ w) in * by lia. set (m := 2^(w-1)) in *.
  destruct (Z.ltb_spec z m); lia.
Qed.
Lemma sf_neg : forall w a, 0 < w -> (sgn w (trunc w a) <? 0) = sf_of w a.
Proof. intros. rewrite sgn_neg by (try apply trunc_range; lia). reflexivity. Qed.
Lemma sf_testbit : forall w a, 0 < w -> sf_of w a = Z.testbit a (w - 1).
Proof.
  intros. rewrite <- sf_neg by lia. rewrite sgn_neg_testbit by (try apply trunc_range; lia).
  rewrite trunc_low_bits by lia. reflexivity.
Qed.
Lemma sgn_0 : forall w, 0 < w -> sgn w 0 = 0.
Proof. intros. unfold sgn. pose proof (pow2_pos (w-1) ltac:(lia)). destruct (Z.ltb_spec 0 (2^(w-1))); lia. Qed.

Lemma trunc_add_cases : forall w a b, 0 <= w -> inr w a -> inr w b ->
  trunc w (a + b) = if a + b <? 2^w then a + b else a + b - 2^w.
Proof.
  intros w a b W [A1 A2] [B1 B2]. destruct (Z.ltb_spec (a + b) (2^w)); [apply trunc_small; split; lia|].
  unfold trunc. symmetry. apply Z.mod_unique with 1; lia.
Qed.
Lemma trunc_sub_cases : forall w a b, 0 <= w -> inr w a -> inr w b ->
  trunc w (a - b) = if a <? b then a - b + 2^w else a - b.
Proof.
  intros w a b W [A1 A2] [B1 B2]. destruct (Z.ltb_spec a b); [|apply trunc_small; split; lia].
  unfold trunc. symmetry. apply Z.mod_unique with (-1); lia.
Qed.
Lemma carry_add : forall w a b, 0 <= w -> inr w a -> inr w b -> (trunc w (a + b) <? a) = (2^w <=? a + b).
Proof.
  intros w a b W A B. rewrite trunc_add_cases by assumption. unfold inr in *. destruct (Z.ltb_spec (a + b) (2^w)); lia.
Qed.
(** Bit 4. *)
Lemma land16 : forall x, (Z.land x 16 =? 0) = negb (Z.testbit x 4).
Proof.
  intros x. destruct (Z.testbit x 4) eqn:T.
  - cbn [negb]. apply Z.eqb_neq. intro E. assert (Q : Z.testbit (Z.land x 16) 4 = false) by (rewrite E; reflexivity).
    rewrite Z.land_spec, T in Q. discriminate Q.
  - cbn [negb]. apply Z.eqb_eq. apply Z.bits_inj'. intros i I. rewrite Z.land_spec, Z.bits_0. change 16 with (2^4).
    rewrite testbit_pow2 by lia. destruct (Z.eqb_spec 4 i) as [<-|]; [rewrite T; reflexivity|apply andb_false_r].
Qed.
Lemma testbit4 : forall x, Z.testbit x 4 = ((x / 16) mod 2 =? 1).
Proof. intros. rewrite Z.testbit_eqb by lia. reflexivity. Qed.
Lemma parity_cases : forall x, x mod 2 = 0 \/ x mod 2 = 1.
Proof. intros. pose proof (Z.mod_pos_bound x 2 ltac:(lia)). lia. Qed.
Lemma aux_add : forall w a b, 8 <= w ->
  negb (Z.land (Z.lxor (Z.lxor a b) (trunc w (a + b))) 16 =? 0) = (16 <=? a mod 16 + b mod 16).
Proof.
  intros w a b W. rewrite land16, negb_involutive, !Z.lxor_spec, trunc_low_bits by lia. rewrite !testbit4.
  assert (Q : (a + b) / 16 = a / 16 + b / 16 + (if 16 <=? a mod 16 + b mod 16 then 1 else 0)).
  { destruct (Z.leb_spec 16 (a mod 16 + b mod 16)); lia. }
  rewrite Q. set (p := a / 16). set (q := b / 16). clearbody p q. destruct (16 <=? a mod 16 + b mod 16); clear Q;
  destruct (parity_cases p), (parity_cases q); 
  destruct (Z.eqb_spec (p mod 2) 1), (Z.eqb_spec (q mod 2) 1); try lia; cbn [xorb];
  match goal with |- context [?x =? 1] => destruct (Z.eqb_spec x 1) end; try reflexivity; exfalso; lia.
Qed.
Lemma aux_sub : forall w a b, 8 <= w ->
  negb (Z.land (Z.lxor (Z.lxor a b) (trunc w (a - b))) 16 =? 0) = (a mod 16 <? b mod 16).
Proof.
  intros w a b W. rewrite land16, negb_involutive, !Z.lxor_spec, trunc_low_bits by lia. rewrite !testbit4.
  assert (Q : (a - b) / 16 = a / 16 - b / 16 - (if a mod 16 <? b mod 16 then 1 else 0)).
  { destruct (Z.ltb_spec (a mod 16) (b mod 16)); lia. }
  rewrite Q. set (p := a / 16). set (q := b / 16). clearbody p q. destruct (a mod 16 <? b mod 16); clear Q;
  destruct (parity_cases p), (parity_cases q); 
  destruct (Z.eqb_spec (p mod 2) 1), (Z.eqb_spec (q mod 2) 1); try lia; cbn [xorb];
  match goal with |- context [?x =? 1] => destruct (Z.eqb_spec x 1) end; try reflexivity; exfalso; lia.
Qed.
(** Signed overflow, from the sign bits. *)
Lemma sgn_cases : forall w a, 0 < w -> inr w a -> sgn w a = if Z.testbit a (w-1) then a - 2^w else a.
Proof.
  intros w a W A. rewrite <- sf_testbit by lia. unfold sf_of. change U with trunc. rewrite trunc_small by assumption.
  unfold sgn. destruct (Z.ltb_spec a (2^(w-1))), (Z.leb_spec (2^(w-1)) a); lia.
Qed.
Lemma ovf_add : forall w a b, 0 < w -> inr w a -> inr w b ->
  (sgn w (Z.land (Z.lxor (Z.lxor a b) (trunc w (-1))) (Z.lxor (trunc w (a + b)) a)) <? 0) = s_out w (sgn w a + sgn w b).
Proof.
  intros w a b W A B.
  rewrite sgn_neg_testbit.
  2: lia.
  2: { apply land_inr; [lia| |]; repeat (apply lxor_inr || apply trunc_range || assumption || lia). }
  rewrite Z.land_spec, !Z.lxor_spec. rewrite (trunc_low_bits w (-1)) by lia. rewrite Z.bits_m1 by lia.
  rewrite <- !sf_testbit by lia. unfold s_out, sf_of, sgn. change U with trunc.
  rewrite trunc_trunc by lia. rewrite (trunc_small w a), (trunc_small w b) by assumption.
  rewrite trunc_add_cases by (assumption || lia). unfold inr in *. rewrite (pow2_succ w) in * by lia. set (m := 2^(w-1)) in *. clearbody m.
  destruct (Z.leb_spec m a), (Z.leb_spec m b), (Z.ltb_spec (a + b) (2 * m)), (Z.ltb_spec a m), (Z.ltb_spec b m); try lia; cbn [xorb andb negb];
  match goal with |- context [m <=? ?x] => destruct (Z.leb_spec m x) | _ => idtac end; cbn [xorb andb negb]; lia.
Qed.
Lemma ovf_sub : forall w a b, 0 < w -> inr w a -> inr w b ->
  negb (b2z (sgn w (trunc w (a - b)) <? 0) =? b2z (sgn w a <? sgn w b)) = s_out w (sgn w a - sgn w b).
Proof.
  intros w a b W A B. rewrite sgn_neg by (try apply trunc_range; lia).
  rewrite trunc_sub_cases by (assumption || lia). unfold s_out, sgn, inr in *. rewrite (pow2_succ w) in * by lia. set (m := 2^(w-1)) in *. clearbody m.
  destruct (Z.ltb_spec a b), (Z.ltb_spec a m), (Z.ltb_spec b m); 
  match goal with |- context [m <=? ?x] => destruct (Z.leb_spec m x) | _ => idtac end;
  match goal with |- context [b2z (?x <? ?y)] => destruct (Z.ltb_spec x y) | _ => idtac end; cbn [b2z Z.eqb negb]; lia.
Qed.

(** ** Byte reversal *)
Lemma bswap_ok : forall w a, w = 16 \/ w = 32 \/ w = 64 -> bswap_sem w a = bswap w a.
Proof.
  intros w a [->|[->| ->]]; unfold bswap_sem, bswap, lanes.
  - change (Z.to_nat (16 / 8)) with 2%nat. cbn [seq map fold_right lanes_from rev app unlanes]. rewrite !lane_byte by lia. unfold byte.
    change (Z.of_nat 0) with 0. change (Z.of_nat 1) with 1. change (0 + 1) with 1. change (16/8) with 2.
    generalize ((a / 256 ^ 0) mod 256) ((a / 256 ^ 1) mod 256). intros. change (256 ^ (2 - 1 - 0)) with 256. change (256 ^ (2 - 1 - 1)) with 1. change (2^8) with 256. lia.
  - change (Z.to_nat (32 / 8)) with 4%nat. cbn [seq map fold_right lanes_from rev app unlanes]. rewrite !lane_byte by lia. unfold byte.
    change (Z.of_nat 0) with 0. change (Z.of_nat 1) with 1. change (Z.of_nat 2) with 2. change (Z.of_nat 3) with 3. change (0 + 1) with 1. change (1 + 1) with 2. change (2 + 1) with 3. change (32/8) with 4.
    generalize ((a / 256 ^ 0) mod 256) ((a / 256 ^ 1) mod 256) ((a / 256 ^ 2) mod 256) ((a / 256 ^ 3) mod 256). intros.
    change (256 ^ (4 - 1 - 0)) with 16777216. change (256 ^ (4 - 1 - 1)) with 65536. change (256 ^ (4 - 1 - 2)) with 256. change (256 ^ (4 - 1 - 3)) with 1. change (2^8) with 256. lia.
  - fold (lanes (64/8) 8 a). change (64/8) with 8. rewrite lanes8_bytes. change (Z.to_nat 8) with 8%nat. cbn [seq map fold_right rev app unlanes]. unfold byte.
    change (Z.of_nat 0) with 0. change (Z.of_nat 1) with 1. change (Z.of_nat 2) with 2. change (Z.of_nat 3) with 3.
    change (Z.of_nat 4) with 4. change (Z.of_nat 5) with 5. change (Z.of_nat 6) with 6. change (Z.of_nat 7) with 7.
    generalize ((a / 256 ^ 0) mod 256) ((a / 256 ^ 1) mod 256) ((a / 256 ^ 2) mod 256) ((a / 256 ^ 3) mod 256)
       ((a / 256 ^ 4) mod 256) ((a / 256 ^ 5) mod 256) ((a / 256 ^ 6) mod 256) ((a / 256 ^ 7) mod 256). intros.
    change (256 ^ (8 - 1 - 0)) with 72057594037927936. change (256 ^ (8 - 1 - 1)) with 281474976710656.
    change (256 ^ (8 - 1 - 2)) with 1099511627776. change (256 ^ (8 - 1 - 3)) with 4294967296.
    change (256 ^ (8 - 1 - 4)) with 16777216. change (256 ^ (8 - 1 - 5)) with 65536. change (256 ^ (8 - 1 - 6)) with 256. change (256 ^ (8 - 1 - 7)) with 1.
    change (2^8) with 256. lia.
Qed.
Lemma bswap_inr : forall w a, w = 16 \/ w = 32 \/ w = 64 -> inr w (bswap w a).
Proof.
  intros w a W. rewrite <- bswap_ok by assumption. unfold bswap_sem.
  assert (E : inr (8 * Z.of_nat (length (rev (lanes (w / 8) 8 a)))) (unlanes 8 (rev (lanes (w / 8) 8 a)))).
  { apply unlanes_inr; [lia|]. apply Forall_rev. apply lanes_Forall. lia. }
  rewrite rev_length, lanes_length in E. replace (8 * Z.of_nat (Z.to_nat (w / 8))) with w in E; [exact E|].
  destruct W as [->|[->| ->]]; reflexivity.
Qed.
