(** Facts about the specification of condition codes, sub-register writes and
    the flags image used by the x86-64 properties (no reference to the lifter). *)

From Coq Require Import ZArith Lia ZifyBool List Bool.
From Verif Require X86Ops.
From Verif Require Import Bits Rv64Spec Rv64Arith X86 X86Spec X86Arith.
Import ListNotations.
Open Scope Z_scope.
Ltac Zify.zify_post_hook ::= Z.div_mod_to_equations.

(** The comparison a condition code stands for after CMP a, b. *)
Definition cmp_pred (cc w a b : Z) : option bool :=
  match cc with
  | 2 => Some (a <? b) | 3 => Some (b <=? a)
  | 4 => Some (a =? b) | 5 => Some (negb (a =? b))
  | 6 => Some (a <=? b) | 7 => Some (b <? a)
  | 12 => Some (S_ w a <? S_ w b) | 13 => Some (S_ w b <=? S_ w a)
  | 14 => Some (S_ w a <=? S_ w b) | 15 => Some (S_ w b <? S_ w a)
  | _ => None
  end.
Lemma zf_sub : forall w a b, 0 < w -> 0 <= a < 2^w -> 0 <= b < 2^w -> zf_of w (a - b) = (a =? b).
Proof.
  intros w a b W A B. unfold zf_of, U. destruct (Z.eqb_spec a b) as [->|N]; [rewrite Z.sub_diag, Z.mod_0_l by lia; reflexivity|].
  apply Z.eqb_neq. intros E. apply Z.mod_divide in E; [|lia]. destruct E as [q E]. assert (q = 0) by nia. lia.
Qed.
Lemma lt_sub : forall w a b, 0 < w -> 0 <= a < 2^w -> 0 <= b < 2^w ->
  xorb (sf_of w (a - b)) (s_out w (S_ w a - S_ w b)) = (S_ w a <? S_ w b).
Proof.
  intros w a b W A B. unfold sf_of, s_out, U. assert (PH : 2 ^ w = 2 * 2 ^ (w - 1)) by (rewrite <- Z.pow_succ_r by lia; f_equal; lia).
  assert (M : (a - b) mod 2 ^ w = if b <=? a then a - b else a - b + 2 ^ w).
  { destruct (b <=? a) eqn:Q; [apply Z.mod_small; lia|]. symmetry. apply Z.mod_unique with (-1); lia. }
  rewrite M. unfold S_. rewrite (Z.mod_small a), (Z.mod_small b) by lia. rewrite PH in *. set (P := 2 ^ (w - 1)) in *. clearbody P. clear M PH.
  destruct (b <=? a) eqn:Q1, (a <? P) eqn:Q2, (b <? P) eqn:Q3; lia.
Qed.
Lemma cond_all : forall g cc cf zf sf pf of_, y_f g fCF = Some cf -> y_f g fZF = Some zf -> y_f g fSF = Some sf -> y_f g fPF = Some pf ->
  y_f g fOF = Some of_ -> cond g cc = Some (cc_bool cc cf zf sf pf of_).
Proof.
  intros g cc cf zf sf pf of_ C Z S P O. unfold cond, fl. rewrite C, Z, S, P, O.
  assert (D : defined g (cc_reads cc) = true).
  { unfold defined. apply forallb_forall. intros f. unfold cc_reads.
    assert (A : forall l, In f l -> incl l [fCF; fZF; fSF; fPF; fOF] -> match y_f g f with Some _ => true | None => false end = true).
    { intros l I1 I2. apply I2 in I1. cbn in I1. repeat destruct I1 as [<-|I1]; try contradiction; rewrite ?C, ?Z, ?S, ?P, ?O; reflexivity. }
    intros I1. eapply A; [exact I1|]. clear. intros x. generalize (cc / 2). intros q. destruct q as [|q|q]; [|do 3 (try destruct q as [q|q|])|]; cbn; intuition. }
  rewrite D. reflexivity.
Qed.
(** The 16 predicates of SDM appendix B, spelled out. *)
Definition cc_sdm (cc : Z) (cf zf sf pf of_ : bool) : bool :=
  match cc with
  | 0 => of_ | 1 => negb of_ | 2 => cf | 3 => negb cf | 4 => zf | 5 => negb zf
  | 6 => cf || zf | 7 => negb cf && negb zf | 8 => sf | 9 => negb sf | 10 => pf | 11 => negb pf
  | 12 => negb (Bool.eqb sf of_) | 13 => Bool.eqb sf of_
  | 14 => zf || negb (Bool.eqb sf of_) | _ => negb zf && Bool.eqb sf of_
  end.
Lemma cc_cases : forall cc, 0 <= cc < 16 -> In cc [0;1;2;3;4;5;6;7;8;9;10;11;12;13;14;15].
Proof. intros cc C. cbn. lia. Qed.
Lemma cc_bool_sdm : forall cc cf zf sf pf of_, 0 <= cc < 16 -> cc_bool cc cf zf sf pf of_ = cc_sdm cc cf zf sf pf of_.
Proof.
  intros cc cf zf sf pf of_ C. apply cc_cases in C. cbn [In] in C.
  repeat destruct C as [<-|C]; try contradiction; destruct cf, zf, sf, pf, of_; reflexivity.
Qed.
Lemma cc_compl : forall cc cf zf sf pf of_, 0 <= cc < 8 ->
  cc_sdm (2 * cc + 1) cf zf sf pf of_ = negb (cc_sdm (2 * cc) cf zf sf pf of_).
Proof.
  intros cc cf zf sf pf of_ C. assert (I : In cc [0;1;2;3;4;5;6;7]) by (cbn; lia). cbn [In] in I.
  repeat destruct I as [<-|I]; try contradiction; destruct cf, zf, sf, pf, of_; reflexivity.
Qed.
Lemma cond_cmp : forall cc w a b g q, 0 < w -> 0 <= a < 2^w -> 0 <= b < 2^w -> cmp_pred cc w a b = Some q ->
  cond (sub_flags w a b 0 false g) cc = Some q.
Proof.
  intros cc w a b g q W A B E. pose proof (zf_sub w a b W A B) as Z0. pose proof (lt_sub w a b W A B) as L0.
  assert (NE : S_ w a = S_ w b -> a = b).
  { intros X. unfold S_ in X. rewrite (Z.mod_small a), (Z.mod_small b) in X by lia. destruct (a <? 2 ^ (w-1)), (b <? 2 ^ (w-1)); lia. }
  assert (EQ : a = b -> S_ w a = S_ w b) by congruence.
  assert (CC : In cc [2;3;4;5;6;7;12;13;14;15]).
  { destruct cc as [|p|p]; try discriminate. do 5 (destruct p as [p|p|]; try discriminate; cbn; auto 12). }
  erewrite cond_all by reflexivity. rewrite !Z.sub_0_r, Z.add_0_r, Z0. rewrite cc_bool_sdm by (cbn in CC; lia).
  assert (LB : negb (Bool.eqb (sf_of w (a - b)) (s_out w (S_ w a - S_ w b))) = (S_ w a <? S_ w b)) by (rewrite <- L0; destruct (sf_of w (a - b)), (s_out w (S_ w a - S_ w b)); reflexivity).
  set (sf := sf_of _ _) in *. set (o := s_out _ _) in *. set (pf := pf_of _). assert (EB : Bool.eqb sf o = negb (S_ w a <? S_ w b)) by (rewrite <- LB; destruct (Bool.eqb sf o); reflexivity).
  clearbody sf pf o. unfold cmp_pred in E. set (sa := S_ w a) in *. set (sb := S_ w b) in *. clearbody sa sb. clear L0 LB Z0.
  cbn [In] in CC. repeat destruct CC as [<-|CC]; try contradiction; injection E as <-; cbn [cc_sdm]; rewrite ?EB; f_equal; lia.
Qed.

(** ** Memory: reading back what was written *)
Lemma rd_wr_same : forall N m a v n, (n <= N)%nat -> Z.of_nat N <= 2^64 -> rd_mem (wr_mem m a N v) a n = v mod 256 ^ Z.of_nat n.
Proof.
  intros N m a v n. induction n as [|n IH]; intros L B; [cbn; symmetry; apply Z.mod_1_r|].
  cbn [rd_mem]. rewrite IH by lia. rewrite Nat2Z.inj_succ, Z.pow_succ_r by lia.
  unfold wr_mem. assert (K : U 64 (U 64 (a + Z.of_nat n) - a) = Z.of_nat n).
  { unfold U. rewrite Zminus_mod_idemp_l. replace (a + Z.of_nat n - a) with (Z.of_nat n) by lia. apply Z.mod_small. lia. }
  rewrite K. assert (R : 0 <= U 64 (a + Z.of_nat n) < 2 ^ 64) by (apply Z.mod_pos_bound; lia).
  replace ((Z.of_nat n <? Z.of_nat N) && (0 <=? U 64 (a + Z.of_nat n)) && (U 64 (a + Z.of_nat n) <? 2 ^ 64)) with true by lia.
  rewrite Z.mod_mod by lia. assert (P : 0 < 256 ^ Z.of_nat n) by (apply Z.pow_pos_nonneg; lia).
  rewrite (Z.mul_comm 256), Z.rem_mul_r by lia. lia.
Qed.

(** ** Bits of registers after partial writes *)
Lemma cat_bits : forall w q r n, 0 <= w -> 0 <= r < 2^w -> 0 <= n ->
  Z.testbit (q * 2^w + r) n = if n <? w then Z.testbit r n else Z.testbit q (n - w).
Proof.
  intros w q r n W R N. destruct (n <? w) eqn:Q.
  - rewrite <- (Z.mod_pow2_bits_low (q * 2 ^ w + r) w n) by lia. rewrite Z.add_comm, Z.mod_add by lia. rewrite Z.mod_small by lia. reflexivity.
  - replace n with ((n - w) + w) at 1 by lia. rewrite <- Z.div_pow2_bits by lia. rewrite Z.div_add_l by lia. rewrite (Z.div_small r) by lia. rewrite Z.add_0_r. reflexivity.
Qed.
(** Bit [n] of a 64-bit register holding [old] after a write of [v] at width [w]. *)
Definition bit_after (w : Z) (old v : Z) (n : Z) : bool :=
  if n <? w then Z.testbit v n else if w =? 32 then false else Z.testbit old n.
Lemma reg_merge_bits : forall w old v n, okw w = true -> 0 <= old < 2^64 -> 0 <= n < 64 ->
  Z.testbit (reg_merge w old v) n = bit_after w old v n.
Proof.
  intros w old v n O R N. unfold reg_merge, bit_after, U. destruct (w =? 64) eqn:Q6.
  - replace (n <? w) with true by lia. apply Z.mod_pow2_bits_low. lia.
  - destruct (w =? 32) eqn:Q3.
    + destruct (n <? w) eqn:Qn; [apply Z.mod_pow2_bits_low; lia|apply Z.mod_pow2_bits_high; lia].
    + assert (W : w = 8 \/ w = 16) by (unfold okw in O; lia). assert (P : 0 < 2 ^ w) by lia.
      replace (old - old mod 2 ^ w + v mod 2 ^ w) with ((old / 2 ^ w) * 2 ^ w + v mod 2 ^ w) by (pose proof (Z.div_mod old (2^w) ltac:(lia)); lia).
      rewrite cat_bits by (try apply Z.mod_pos_bound; lia). destruct (n <? w) eqn:Qn; [apply Z.mod_pow2_bits_low; lia|].
      rewrite Z.div_pow2_bits by lia. f_equal. lia.
Qed.
Lemma hi_bits : forall old v n, 0 <= n ->
  Z.testbit (old - ((old / 256) mod 256) * 256 + (v mod 256) * 256) n =
  if (8 <=? n) && (n <? 16) then Z.testbit v (n - 8) else Z.testbit old n.
Proof.
  intros old v n N.
  replace (old - old / 256 mod 256 * 256 + v mod 256 * 256) with (((old / 2^16) * 2 ^ 8 + v mod 2 ^ 8) * 2 ^ 8 + old mod 2^8).
  2: { change (2^8) with 256. change (2^16) with (256 * 256). rewrite <- Z.div_div by lia. set (q := old / 256). pose proof (Z.div_mod old 256 ltac:(lia)). fold q in H. pose proof (Z.div_mod q 256 ltac:(lia)). lia. }
  rewrite cat_bits by (try apply Z.mod_pos_bound; lia). destruct (n <? 8) eqn:Q1.
  - replace (8 <=? n) with false by lia. cbn [andb]. apply Z.mod_pow2_bits_low. lia.
  - rewrite cat_bits by (try apply Z.mod_pos_bound; lia). replace (8 <=? n) with true by lia. cbn [andb].
    destruct (n <? 16) eqn:Q2.
    + replace (n - 8 <? 8) with true by lia. apply Z.mod_pow2_bits_low. lia.
    + replace (n - 8 <? 8) with false by lia. rewrite Z.div_pow2_bits by lia. f_equal. lia.
Qed.

(** Bit [k] of a little-endian load. *)
Lemma rd_mem_bit : forall n m A k, 0 <= k < 8 * Z.of_nat n -> Z.testbit (rd_mem m A n) k = Z.testbit (m (U 64 (A + k / 8))) (k mod 8).
Proof.
  induction n as [|n IH]; intros m A k B; [lia|]. cbn [rd_mem].
  replace (256 ^ Z.of_nat n) with (2 ^ (8 * Z.of_nat n)) by (rewrite Z.pow_mul_r by lia; reflexivity).
  rewrite Z.add_comm. rewrite cat_bits.
  - destruct (k <? 8 * Z.of_nat n) eqn:Q; [apply IH; lia|]. assert (K : k / 8 = Z.of_nat n) by lia. rewrite K. change 256 with (2 ^ 8).
    rewrite Z.mod_pow2_bits_low by lia. f_equal. lia.
  - lia.
  - pose proof (X86Ops.rd_mem_inr n m A) as R. exact R.
  - lia.
Qed.

(** ** The flags image *)
Lemma rflags_bit : forall g f, Z.odd (rflags g / 2 ^ flag_pos f) = fl g f.
Proof. intros g f. unfold rflags. destruct (fl g fCF) eqn:A, (fl g fPF) eqn:B, (fl g fAF) eqn:C, (fl g fZF) eqn:D, (fl g fSF) eqn:E, (fl g fDF) eqn:F, (fl g fOF) eqn:G; destruct f; rewrite ?A, ?B, ?C, ?D, ?E, ?F, ?G; reflexivity. Qed.
Lemma rflags_fixed : forall g, Z.testbit (rflags g) 1 = true /\ Z.testbit (rflags g) 9 = true /\ Z.testbit (rflags g) 3 = false /\
  Z.testbit (rflags g) 5 = false /\ Z.testbit (rflags g) 8 = false /\ (forall n, 12 <= n -> Z.testbit (rflags g) n = false) /\ 0 <= rflags g < 2^12.
Proof.
  intros g. assert (R : 0 <= rflags g < 2 ^ 12) by (unfold rflags, bz; repeat match goal with |- context [if ?b then 1 else 0] => destruct b end; cbn; lia).
  assert (H : forall n, 12 <= n -> Z.testbit (rflags g) n = false).
  { intros n N. apply Z.bits_above_log2; [lia|]. destruct (Z.eq_dec (rflags g) 0) as [->|NZ]; [cbn; lia|]. assert (Z.log2 (rflags g) < 12) by (apply Z.log2_lt_pow2; lia). lia. }
  repeat (split; [|]); try assumption; try apply R; unfold rflags; destruct (fl g fCF), (fl g fPF), (fl g fAF), (fl g fZF), (fl g fSF), (fl g fDF), (fl g fOF); reflexivity.
Qed.
Lemma load_rflags : forall g g0 f b, y_f g f = Some b -> y_f (load_flags 64 (rflags g) g0) f = Some b.
Proof.
  intros g g0 f b E. unfold load_flags. cbn [set_f y_f]. replace (flag_pos f <? 64) with true by (destruct f; reflexivity).
  rewrite rflags_bit. unfold fl. rewrite E. reflexivity.
Qed.
Lemma rflags_load : forall g v f, Z.odd (rflags (load_flags 64 v g) / 2 ^ flag_pos f) = Z.odd (v / 2 ^ flag_pos f).
Proof. intros g v f. rewrite rflags_bit. unfold fl, load_flags. cbn [set_f y_f]. replace (flag_pos f <? 64) with true by (destruct f; reflexivity). reflexivity. Qed.
