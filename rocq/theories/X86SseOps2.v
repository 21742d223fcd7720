(** Values computed by the lifted SSE integer instructions, continued. *)

From Coq Require Import ZArith Lia ZifyBool List Bool.
From Verif Require Import Bits IR Facet Dsl Rv64 Rv64Spec Rv64Sim Rv64Arith X86 X86Spec X86Arith X86Sim X86Ops X86Sse X86SseSpec X86SseVec X86SseSim X86SseOps.
Import ListNotations.
Open Scope Z_scope.
Ltac Zify.zify_post_hook ::= Z.div_mod_to_equations.

Lemma nth_zmap : forall (f : Z -> Z) n k, 0 <= k < n -> nth (Z.to_nat k) (map f (zseq n)) 0 = f k.
Proof.
  intros f n k K. unfold zseq. rewrite map_map. rewrite (nth_indep _ 0 (f (Z.of_nat 0))) by (rewrite map_length, seq_length; lia).
  rewrite (map_nth (fun j => f (Z.of_nat j))). rewrite seq_nth by lia. f_equal. lia.
Qed.

Section Fam.
Context `{FpuOps}.
Variable c : cenv.
Notation vres := (vres c). Notation vres1 := (vres1 c).

(** Shuffle by a computed mask. *)
Lemma pvec_shufm : forall vs N m e1 e2 n t f g, pvec c vs e1 n t f -> pvec c vs e2 n t g -> 0 <= tsize t -> 0 <= N ->
  (forall k, 0 <= k < N -> 0 <= m k < 2 * n) ->
  pvec c vs (eShuf (map m (zseq N)) e1 e2) N t (fun k => if m k <? n then f (m k) else g (m k - n)).
Proof.
  intros vs N m e1 e2 n t f g A B T PN M. rewrite <- (zseq_map_len m N PN) at 2. eapply pvec_ext.
  - apply (pvec_shuf c vs _ _ _ _ _ _ _ A B T). apply forallb_forall. intros i I. apply in_map_iff in I. destruct I as (k & <- & K).
    apply zseq_In in K. specialize (M k K). lia.
  - lia.
  - intros k K. rewrite zseq_map_len in K by assumption. unfold pick. rewrite nth_zmap by assumption. reflexivity.
Qed.
(** Adjacent pairs. *)
Lemma pvec_horz : forall vs e1 e2 n t f g, pvec c vs e1 n t f -> pvec c vs e2 n t g -> 0 <= tsize t -> 0 <= n -> n mod 2 = 0 ->
  pvec c vs (eShuf (horz1 n) e1 e2) n t (fun k => if k <? n / 2 then f (2 * k) else g (2 * (k - n / 2))) /\
  pvec c vs (eShuf (horz2 n) e1 e2) n t (fun k => if k <? n / 2 then f (2 * k + 1) else g (2 * (k - n / 2) + 1)).
Proof.
  intros vs e1 e2 n t f g A B T N E. split.
  - eapply pvec_ext; [apply (pvec_shufm vs n (fun k => 2 * k) _ _ n t f g A B T N); lia|lia|].
    intros k K. cbn beta. destruct (Z.ltb_spec (2 * k) n), (Z.ltb_spec k (n / 2)); try lia; f_equal; lia.
  - eapply pvec_ext; [apply (pvec_shufm vs n (fun k => 2 * k + 1) _ _ n t f g A B T N); lia|lia|].
    intros k K. cbn beta. destruct (Z.ltb_spec (2 * k + 1) n), (Z.ltb_spec k (n / 2)); try lia; f_equal; lia.
Qed.
Lemma f_horz : forall op F n w a b, arith_op op = Some F -> 0 < w -> 0 <= n -> n mod 2 = 0 ->
  vres (TV n w) (TV n w) a b (eBin op (eShuf (horz1 n) v1 v2) (eShuf (horz2 n) v1 v2)) n (TInt w)
    (fun k => let s := if k <? n / 2 then a else b in let j := if k <? n / 2 then k else k - n / 2 in
              U w (F (Ln w s (2 * j)) (Ln w s (2 * j + 1)))).
Proof.
  intros op F n w a b O W N E vs E1 E2. unfold TV in *.
  destruct (pvec_horz vs v1 v2 n (TInt w) (Ln w a) (Ln w b) ltac:(pv1) ltac:(pv1) ltac:(tl) N E) as [P1 P2].
  destruct op; try discriminate O; injection O as <-;
    (eapply pvec_ext; [first [eapply pvec_add|eapply pvec_sub|eapply pvec_mul]; try eassumption; lia|lia|];
     intros k K; cbn beta zeta; destruct (k <? n / 2); reflexivity).
Qed.
Lemma f_hsat : forall op F n w a b, addsub_op op = Some F -> w = 8 \/ w = 16 -> 0 <= n -> n mod 2 = 0 ->
  vres (TV n w) (TV n w) a b
    (SaturateTrunc n (2 * w) (eBin op (eCast CSExt (TV n (2 * w)) (eShuf (horz1 n) v1 v2)) (eCast CSExt (TV n (2 * w)) (eShuf (horz2 n) v1 v2))) true) n (TInt w)
    (fun k => let s := if k <? n / 2 then a else b in let j := if k <? n / 2 then k else k - n / 2 in
              ssat w (F (S_ w (Ln w s (2 * j))) (S_ w (Ln w s (2 * j + 1))))).
Proof.
  intros op F n w a b O W N E vs E1 E2. unfold TV in E1, E2.
  destruct (pvec_horz vs v1 v2 n (TInt w) (Ln w a) (Ln w b) ltac:(pv1) ltac:(pv1) ltac:(tl) N E) as [P1 P2].
  eapply pvec_ext.
  - apply (f_addsubsat c vs op F true n w _ _ _ _ O W N P1 P2).
  - lia.
  - intros k K. cbn zeta beta. destruct (k <? n / 2); reflexivity.
Qed.
Lemma f_addsat : forall op F sign n w a b, addsub_op op = Some F -> w = 8 \/ w = 16 -> 0 <= n ->
  let cast := if sign : bool then CSExt else CZExt in
  vres (TV n w) (TV n w) a b (SaturateTrunc n (2 * w) (eBin op (eCast cast (TV n (2 * w)) v1) (eCast cast (TV n (2 * w)) v2)) sign) n (TInt w)
    (fun k => if sign then ssat w (F (S_ w (Ln w a k)) (S_ w (Ln w b k))) else usat w (F (Ln w a k) (Ln w b k))).
Proof.
  intros op F sign n w a b O W N cast vs E1 E2. unfold TV in E1, E2.
  apply (f_addsubsat c vs op F sign n w _ _ (Ln w a) (Ln w b) O W N); pv1.
Qed.
(** Packs. *)
Lemma f_pack : forall n w sign a b, w = 16 \/ w = 32 -> 0 < n ->
  vres (TV n w) (TV n w) a b
    (eShuf (zseq n ++ map (fun k => k + n) (zseq n)) (SaturateTrunc n w v1 sign) (SaturateTrunc n w v2 sign)) (2 * n) (TInt (w / 2))
    (fun k => (if sign : bool then ssat (w / 2) else usat (w / 2)) (S_ w (Ln w (if k <? n then a else b) (k mod n)))).
Proof.
  intros n w sign a b W N vs E1 E2. unfold TV in E1, E2.
  assert (M : zseq n ++ map (fun k => k + n) (zseq n) = map (fun k => k) (zseq (2 * n))).
  { rewrite map_id. unfold zseq. rewrite map_map. replace (Z.to_nat (2 * n)) with (Z.to_nat n + Z.to_nat n)%nat by lia.
    rewrite seq_app, map_app. f_equal.
    assert (G : forall m j j', Z.of_nat j + n = Z.of_nat j' -> map (fun x => Z.of_nat x + n) (seq j m) = map Z.of_nat (seq j' m)).
    { induction m; intros j j' J; [reflexivity|]. cbn [seq map]. f_equal; [exact J|]. apply IHm. lia. }
    apply G. lia. }
  rewrite M. eapply pvec_ext.
  - eapply pvec_shufm; [apply f_sat; [exact W|lia|pv1]|apply f_sat; [exact W|lia|pv1]|tl|lia|lia].
  - lia.
  - intros k K. cbn beta. cbn [tsize]. destruct (Z.ltb_spec k n).
    + rewrite (Z.mod_small k n) by lia. destruct sign; reflexivity.
    + replace (k mod n) with (k - n) by (apply (Z.mod_unique_pos _ _ 1); lia). destruct sign; reflexivity.
Qed.
(** Averages. *)
Lemma f_avg : forall n w a b, 0 < w -> 0 <= n ->
  vres (TV n w) (TV n w) a b
    (eCast CTrunc (TV n w) (eLShr (eAdd (eAdd (eCast CZExt (TV n (2 * w)) v1) (eCast CZExt (TV n (2 * w)) v2)) (eSplat n (w * 2) 1)) (eSplat n (w * 2) 1)))
    n (TInt w) (fun k => U w ((Ln w a k + Ln w b k + 1) / 2)).
Proof.
  intros n w a b W N vs E1 E2. unfold TV in E1, E2. rewrite (Z.mul_comm w 2).
  assert (T1 : trunc (2 * w) 1 = 1). { apply trunc_id. split; [lia|]. apply Z.pow_gt_1; lia. }
  eapply pvec_ext.
  - pv1. intros k K. rewrite T1. lia.
  - lia.
  - intros k K. cbn beta. rewrite T1, trunc_add_l by lia. change U with trunc. change (2 ^ 1) with 2. f_equal. f_equal. apply trunc_id.
    pose proof (Ln_inr w a k ltac:(lia)) as I. pose proof (Ln_inr w b k ltac:(lia)) as J. unfold inr in *. cbn [tsize].
    assert (2 ^ (w + 1) <= 2 ^ (2 * w)) by (apply pow_le2; lia). rewrite Z.pow_add_r in * by lia. lia.
Qed.
(** Multiplications. *)
Lemma f_mulh : forall (sign : bool) a b,
  let cast := if sign then CSExt else CZExt in
  vres (TV 8 16) (TV 8 16) a b
    (eCast CTrunc (TV 8 16) (eLShr (eMul (eCast cast (TV 8 32) v1) (eCast cast (TV 8 32) v2)) (eSplat 8 32 16)))
    8 (TInt 16) (fun k => U 16 ((if sign then S_ 16 (Ln 16 a k) * S_ 16 (Ln 16 b k) else Ln 16 a k * Ln 16 b k) / 2 ^ 16)).
Proof.
  intros sign a b cast vs E1 E2. unfold TV in E1, E2. destruct sign; unfold cast.
  - eapply pvec_ext; [pv1; intros; reflexivity|lia|]. intros k K. cbn beta. change (trunc 32 16) with 16. cbn [tsize].
    change U with trunc. unfold sext. rewrite trunc_mul_l, trunc_mul_r by lia. rewrite !S_small by (apply Ln_inr; lia).
    generalize (sgn 16 (Ln 16 a k) * sgn 16 (Ln 16 b k)) as p. intros p. unfold trunc.
    change (2 ^ 32) with (2 ^ 16 * 2 ^ 16). rewrite Z.rem_mul_r by lia.
    rewrite Z.mul_comm, Z.div_add, (Z.div_small (p mod 2 ^ 16)), Z.add_0_l by lia. apply Zmod_mod.
  - eapply pvec_ext; [pv1; intros; reflexivity|lia|]. intros k K. cbn beta. change (trunc 32 16) with 16. cbn [tsize].
    change U with trunc. generalize (Ln 16 a k * Ln 16 b k) as p. intros p. unfold trunc.
    change (2 ^ 32) with (2 ^ 16 * 2 ^ 16). rewrite Z.rem_mul_r by lia.
    rewrite Z.mul_comm, Z.div_add, (Z.div_small (p mod 2 ^ 16)), Z.add_0_l by lia. apply Zmod_mod.
Qed.
Lemma f_muldq : forall (sign : bool) a b,
  let cast := if sign then CSExt else CZExt in
  vres (TV 4 32) (TV 4 32) a b
    (eMul (eCast cast (TV 2 64) (eShuf [0; 2] v1 v1)) (eCast cast (TV 2 64) (eShuf [0; 2] v2 v2)))
    2 (TInt 64) (fun k => if sign then U 64 (S_ 32 (Ln 32 a (2 * k)) * S_ 32 (Ln 32 b (2 * k))) else Ln 32 a (2 * k) * Ln 32 b (2 * k)).
Proof.
  intros sign a b cast vs E1 E2. unfold TV in E1, E2.
  assert (P : forall f k, 0 <= k < 2 -> pick [0; 2] 4 f f k = f (2 * k)) by (intros f k K; kcase k K 2; reflexivity).
  assert (R : forall k, 0 <= k < 2 -> 0 <= Ln 32 a (2 * k) * Ln 32 b (2 * k) < 2 ^ 64).
  { intros k _. pose proof (Ln_inr 32 a (2 * k) ltac:(lia)). pose proof (Ln_inr 32 b (2 * k) ltac:(lia)). unfold inr in *. nia. }
  destruct sign; unfold cast.
  - eapply pvec_ext; [eapply pvec_mul; [eapply pvec_sext; [eapply (pvec_shuf c vs [0; 2]); [pv1|pv1|tl|reflexivity]|lia]|eapply pvec_sext; [eapply (pvec_shuf c vs [0; 2]); [pv1|pv1|tl|reflexivity]|lia]|lia]|lia|].
    intros k K. cbn beta. cbn [tsize]. rewrite !P by assumption. change U with trunc. unfold sext. rewrite trunc_mul_l, trunc_mul_r by lia.
    rewrite !S_small by (apply Ln_inr; lia). reflexivity.
  - eapply pvec_ext; [eapply pvec_mul; [eapply pvec_zext; [eapply (pvec_shuf c vs [0; 2]); [pv1|pv1|tl|reflexivity]|lia]|eapply pvec_zext; [eapply (pvec_shuf c vs [0; 2]); [pv1|pv1|tl|reflexivity]|lia]|lia]|lia|].
    intros k K. cbn beta. cbn [tsize]. rewrite !P by assumption. apply trunc_id. apply R. exact K.
Qed.
Lemma f_maddwd : forall a b,
  let mul := eMul (eCast CSExt (TV 8 32) v1) (eCast CSExt (TV 8 32) v2) in
  vres (TV 8 16) (TV 8 16) a b (eAdd (eShuf [0; 2; 4; 6] mul mul) (eShuf [1; 3; 5; 7] mul mul)) 4 (TInt 32)
    (fun k => U 32 (S_ 16 (Ln 16 a (2 * k)) * S_ 16 (Ln 16 b (2 * k)) + S_ 16 (Ln 16 a (2 * k + 1)) * S_ 16 (Ln 16 b (2 * k + 1)))).
Proof.
  intros a b mul vs E1 E2. unfold TV in E1, E2.
  assert (M : pvec c vs mul 8 (TInt 32) (fun k => trunc 32 (S_ 16 (Ln 16 a k) * S_ 16 (Ln 16 b k)))).
  { eapply pvec_ext; [unfold mul; pv1|lia|]. intros k K. cbn beta. cbn [tsize]. unfold sext. rewrite trunc_mul_l, trunc_mul_r by lia.
    rewrite !S_small by (apply Ln_inr; lia). reflexivity. }
  eapply pvec_ext; [eapply pvec_add; [eapply (pvec_shuf c vs [0; 2; 4; 6]); [exact M|exact M|tl|reflexivity]|eapply (pvec_shuf c vs [1; 3; 5; 7]); [exact M|exact M|tl|reflexivity]|lia]|lia|].
  intros k K. change (Z.of_nat (length [0; 2; 4; 6])) with 4 in K. cbn beta.
  assert (P : forall f, pick [0; 2; 4; 6] 8 f f k = f (2 * k) /\ pick [1; 3; 5; 7] 8 f f k = f (2 * k + 1)) by (intros f; kcase k K 4; split; reflexivity).
  rewrite (proj1 (P _)), (proj2 (P _)). rewrite trunc_add_l, trunc_add_r by lia. reflexivity.
Qed.
Lemma f_maddubsw : forall a b,
  let mul m := eMul (eCast CSExt (TV 8 32) (eShuf m v1 (EUndef (TV 16 8)))) (eCast CZExt (TV 8 32) (eShuf m v2 (EUndef (TV 16 8)))) in
  vres (TV 16 8) (TV 16 8) b a (SaturateTrunc 8 32 (eAdd (mul [0; 2; 4; 6; 8; 10; 12; 14]) (mul [1; 3; 5; 7; 9; 11; 13; 15])) true) 8 (TInt 16)
    (fun k => ssat 16 (Ln 8 a (2 * k) * S_ 8 (Ln 8 b (2 * k)) + Ln 8 a (2 * k + 1) * S_ 8 (Ln 8 b (2 * k + 1)))).
Proof.
  intros a b mul vs E1 E2. unfold TV in E1, E2.
  assert (M : forall m d, length m = 8%nat -> forallb (fun i => (0 <=? i) && (i <? 16)) m = true ->
     (forall k, 0 <= k < 8 -> nth (Z.to_nat k) m 0 = 2 * k + d) ->
     pvec c vs (mul m) 8 (TInt 32) (fun k => trunc 32 (Ln 8 a (2 * k + d) * S_ 8 (Ln 8 b (2 * k + d))))).
  { intros m d L F N. eapply pvec_ext.
    - unfold mul.
      assert (SH : forall e f, pvec c vs e 16 (TInt 8) f -> pvec c vs (eShuf m e (EUndef (TV 16 8))) 8 (TInt 8) (fun k => f (nth (Z.to_nat k) m 0))).
      { intros e f Q. pose proof (pvec_shufu c vs m e 16 (TInt 8) f Q ltac:(tl) F) as R. rewrite L in R. exact R. }
      eapply pvec_mul; [eapply pvec_sext; [apply SH; pv1|lia]|eapply pvec_zext; [apply SH; pv1|lia]|lia].
    - lia.
    - intros k K. cbn beta. cbn [tsize]. rewrite N by lia. unfold sext. rewrite trunc_mul_l by lia. rewrite S_small by (apply Ln_inr; lia). f_equal. ring. }
  eapply pvec_ext.
  - change (TInt 16) with (TInt (32 / 2)). apply f_sat; [lia|lia|]. eapply pvec_add; [apply (M _ 0)|apply (M _ 1)|lia]; try reflexivity; intros k K; kcase k K 8; reflexivity.
  - lia.
  - intros k K. cbn beta. change (32 / 2) with 16. f_equal. rewrite trunc_add_l, trunc_add_r, S_trunc by lia. rewrite Z.add_0_r. f_equal. apply S_id; [lia|].
    pose proof (Ln_inr 8 a (2 * k) ltac:(lia)). pose proof (Ln_inr 8 a (2 * k + 1) ltac:(lia)).
    pose proof (S_range 8 (Ln 8 b (2 * k)) ltac:(lia)). pose proof (S_range 8 (Ln 8 b (2 * k + 1)) ltac:(lia)). unfold inr in *.
    change (2 ^ 8) with 256 in *. change (2 ^ (8 - 1)) with 128 in *. change (2 ^ (32 - 1)) with 2147483648. nia.
Qed.
(** Comparisons, minimum and maximum, absolute value, sign. *)
Lemma f_cmp : forall p n w a b, 1 < w -> 0 <= n ->
  vres (TV n w) (TV n w) a b (eCast CSExt (TV n w) (eCmp p v1 v2)) n (TInt w) (fun k => mask_if w (icmp_sem p w (Ln w a k) (Ln w b k))).
Proof.
  intros p n w a b W N vs E1 E2. unfold TV in E1, E2. eapply pvec_ext; [pv1|lia|]. intros k K. cbn beta. apply sext_mask. assumption.
Qed.
Lemma f_minmax : forall p n w a b, 1 <= w -> 0 <= n ->
  vres (TV n w) (TV n w) a b (eSel (eCmp p v1 v2) v1 v2) n (TInt w) (fun k => if icmp_sem p w (Ln w a k) (Ln w b k) then Ln w a k else Ln w b k).
Proof. intros p n w a b W N vs E1 E2. unfold TV in E1, E2. eapply pvec_ext; [pv1|lia|]. reflexivity. Qed.
Lemma f_abs : forall n w b, 1 < w -> 0 <= n ->
  vres1 (TV n w) b (eSel (eCmp SGE v1 (eNull (TV n w))) v1 (eSub (eNull (TV n w)) v1)) n (TInt w) (fun k => Z.abs (S_ w (Ln w b k))).
Proof.
  intros n w b W N vs E1. unfold TV in E1. eapply pvec_ext; [pv1|lia|]. intros k K. cbn beta. cbn [icmp_sem tsize].
  pose proof (Ln_inr w b k ltac:(lia)) as I. rewrite S_small by exact I. pose proof (sgn_range w _ ltac:(lia) I) as R.
  replace (sgn w 0) with 0 by (unfold sgn; pose proof (pow2_pos (w - 1) ltac:(lia)); destruct (Z.ltb_spec 0 (2 ^ (w - 1))); lia).
  pose proof (pow_dbl w ltac:(lia)). destruct (Z.leb_spec 0 (sgn w (Ln w b k))).
  - revert H1. unfold sgn. destruct (Z.ltb_spec (Ln w b k) (2 ^ (w - 1))); unfold inr in I; lia.
  - rewrite <- (trunc_sgn w (Ln w b k)) at 1 by (lia || exact I). rewrite trunc_sub_r by lia. rewrite trunc_id; lia.
Qed.
Lemma f_sign : forall n w a b, 1 < w -> 0 <= n ->
  vres (TV n w) (TV n w) a b
    (eSel (eCmp EQ v2 (eNull (TV n w))) (eNull (TV n w)) (eSel (eCmp SLT v2 (eNull (TV n w))) (eVNeg n w v1) v1)) n (TInt w)
    (fun k => U w (S_ w (Ln w a k) * Z.sgn (S_ w (Ln w b k)))).
Proof.
  intros n w a b W N vs E1 E2. unfold TV in E1, E2. unfold eVNeg. eapply pvec_ext; [pv1|lia|]. intros k K. cbn beta. cbn [icmp_sem tsize].
  pose proof (Ln_inr w a k ltac:(lia)) as I. pose proof (Ln_inr w b k ltac:(lia)) as J. rewrite !S_small by assumption. change U with trunc.
  pose proof (sgn_range w _ ltac:(lia) I) as R.
  replace (sgn w 0) with 0 by (unfold sgn; pose proof (pow2_pos (w - 1) ltac:(lia)); destruct (Z.ltb_spec 0 (2 ^ (w - 1))); lia).
  pose proof (pow_dbl w ltac:(lia)) as D.
  destruct (Z.eqb_spec (Ln w b k) 0) as [B0|B0].
  - rewrite B0. replace (sgn w 0) with 0 by (unfold sgn; pose proof (pow2_pos (w - 1) ltac:(lia)); destruct (Z.ltb_spec 0 (2 ^ (w - 1))); lia).
    cbn [Z.sgn]. rewrite Z.mul_0_r. reflexivity.
  - destruct (Z.ltb_spec (sgn w (Ln w b k)) 0).
    + rewrite (Z.sgn_neg (sgn w (Ln w b k))) by lia. rewrite <- (trunc_sgn w (Ln w a k)) at 1 by (lia || exact I). rewrite trunc_sub_r by lia. f_equal. lia.
    + rewrite (Z.sgn_pos (sgn w (Ln w b k))). { rewrite Z.mul_1_r. symmetry. apply trunc_sgn; [lia|exact I]. }
      assert (sgn w (Ln w b k) <> 0); [|lia]. intro Q. apply B0. rewrite <- (trunc_sgn w (Ln w b k)) by (lia || exact J). rewrite Q. reflexivity.
Qed.
(** Extensions. *)
Lemma f_sext : forall n w w' b, 0 < w < w' -> 0 <= n ->
  vres1 (TV n w) b (eCast CSExt (TV n w') v1) n (TInt w') (fun k => U w' (S_ w (Ln w b k))).
Proof.
  intros n w w' b W N vs E1. unfold TV in E1. eapply pvec_ext; [pv1|lia|]. intros k K. cbn beta. unfold sext. cbn [tsize].
  rewrite S_small by (apply Ln_inr; lia). reflexivity.
Qed.
Lemma f_zext : forall n w w' b, 0 < w < w' -> 0 <= n -> vres1 (TV n w) b (eCast CZExt (TV n w') v1) n (TInt w') (Ln w b).
Proof. intros n w w' b W N vs E1. unfold TV in E1. eapply pvec_ext; [pv1|lia|]. reflexivity. Qed.
End Fam.
