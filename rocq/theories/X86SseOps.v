(** Values computed by the lifted SSE integer instructions, lane by lane. *)

From Coq Require Import ZArith Lia ZifyBool List Bool.
From Verif Require Import Bits IR Facet Dsl Rv64 Rv64Spec Rv64Sim Rv64Arith X86 X86Spec X86Arith X86Sim X86Ops X86Sse X86SseSpec X86SseVec X86SseSim.
Import ListNotations.
Open Scope Z_scope.
Ltac Zify.zify_post_hook ::= Z.div_mod_to_equations.

(** ** Arithmetic on single lanes *)
Lemma S_inr : forall w z, inr w z -> S_ w z = sgn w z.
Proof. exact S_small. Qed.
Lemma pow_le2 : forall a b, 0 <= a <= b -> 2 ^ a <= 2 ^ b.
Proof. intros. apply Z.pow_le_mono_r; lia. Qed.
Lemma pow_dbl : forall w, 0 < w -> 2 ^ w = 2 * 2 ^ (w - 1).
Proof. intros. apply pow2_succ. assumption. Qed.
Lemma trunc_id : forall w z, 0 <= z < 2 ^ w -> trunc w z = z.
Proof. intros. apply trunc_small. assumption. Qed.
Lemma sgn_S : forall w z, 0 < w -> sgn w (trunc w z) = S_ w z.
Proof. intros. unfold S_, sgn, trunc. reflexivity. Qed.
Lemma S_trunc_id : forall w z, 0 < w -> - 2 ^ (w - 1) <= z < 2 ^ (w - 1) -> S_ w (trunc w z) = z.
Proof. intros w z W R. rewrite <- sgn_S by assumption. rewrite trunc_trunc by lia. apply sgn_trunc_id; assumption. Qed.

(** Saturation by two selects and a truncation. *)
Definition satexp (w : Z) (sign : bool) (x : Z) : Z :=
  let mn := if sign then - 2 ^ (w / 2 - 1) else 0 in
  let mx := if sign then 2 ^ (w / 2 - 1) - 1 else 2 ^ (w / 2) - 1 in
  let v := if sgn w x <? sgn w (trunc w mn) then trunc w mn else x in
  trunc (w / 2) (if sgn w (trunc w mx) <? sgn w v then trunc w mx else v).
Lemma sat_gen : forall w mn mx x, 0 < w -> inr w x -> - 2 ^ (w - 1) <= mn <= mx -> mx < 2 ^ (w - 1) ->
  (let v := if sgn w x <? sgn w (trunc w mn) then trunc w mn else x in
   if sgn w (trunc w mx) <? sgn w v then trunc w mx else v) = trunc w (clamp mn mx (sgn w x)).
Proof.
  intros w mn mx x W I M1 M2. cbn zeta. pose proof (sgn_range w x W I) as R.
  rewrite (sgn_trunc_id w mn), (sgn_trunc_id w mx) by lia. unfold clamp.
  destruct (Z.ltb_spec (sgn w x) mn).
  - rewrite (sgn_trunc_id w mn) by lia. destruct (Z.ltb_spec mx mn); [lia|]. f_equal. lia.
  - destruct (Z.ltb_spec mx (sgn w x)).
    + f_equal. lia.
    + rewrite <- (trunc_sgn w x) at 1 by assumption. f_equal. lia.
Qed.
Lemma satexp_ok : forall w sign x, w = 16 \/ w = 32 -> inr w x ->
  satexp w sign x = if sign then ssat (w / 2) (S_ w x) else usat (w / 2) (S_ w x).
Proof.
  intros w sign x W I. unfold satexp. rewrite S_small by exact I.
  assert (P : forall q, trunc (w / 2) (trunc w q) = trunc (w / 2) q) by (intros; apply trunc_trunc_le; lia).
  pose proof (sat_gen w (if sign then - 2 ^ (w / 2 - 1) else 0) (if sign then 2 ^ (w / 2 - 1) - 1 else 2 ^ (w / 2) - 1) x) as E.
  cbn zeta in E |- *. rewrite E; try assumption; try lia.
  - rewrite P. destruct sign; [reflexivity|]. unfold usat. apply trunc_id. unfold clamp.
    destruct W as [-> | ->]; cbn; lia.
  - destruct W as [-> | ->]; destruct sign; cbn; lia.
  - destruct W as [-> | ->]; destruct sign; cbn; lia.
Qed.
Lemma sext_mask : forall w q, 1 < w -> sext 1 w (b2z q) = mask_if w q.
Proof.
  intros w q W. unfold sext, mask_if, ones. destruct q; cbn [b2z].
  - change (sgn 1 1) with (-1). unfold trunc. pose proof (pow2_pos w ltac:(lia)).
    symmetry. apply (Z.mod_unique_pos _ _ (-1)); lia.
  - change (sgn 1 0) with 0. unfold trunc. apply Zmod_0_l.
Qed.
Lemma mask_if_inr : forall w q, 0 <= w -> inr w (mask_if w q).
Proof. intros w q W. unfold mask_if, ones, inr. pose proof (pow2_pos w W). destruct q; lia. Qed.

(** Bits of lanes. *)
Lemma Ln_bit : forall w z k j, 0 < w -> 0 <= k -> 0 <= j < w -> Z.testbit (Ln w z k) j = Z.testbit z (w * k + j).
Proof. intros. rewrite <- lane_Ln by lia. rewrite testbit_lane by lia. reflexivity. Qed.
Lemma Ln_op : forall (F : Z -> Z -> Z) (B : bool -> bool -> bool), (forall a b j, 0 <= j -> Z.testbit (F a b) j = B (Z.testbit a j) (Z.testbit b j)) ->
  B false false = false -> (forall w x y, 0 <= w -> inr w x -> inr w y -> inr w (F x y)) ->
  forall w a b k, 0 < w -> 0 <= k -> Ln w (F a b) k = F (Ln w a k) (Ln w b k).
Proof.
  intros F B FB B0 FI w a b k W K. apply (bits_eq w); [lia|apply Ln_inr; lia|apply FI; [lia|apply Ln_inr; lia..]|].
  intros j J. rewrite Ln_bit, !FB, !Ln_bit by nia. reflexivity.
Qed.
Lemma Ln_lor : forall w a b k, 0 < w -> 0 <= k -> Ln w (Z.lor a b) k = Z.lor (Ln w a k) (Ln w b k).
Proof. apply (Ln_op Z.lor orb); [intros; apply Z.lor_spec|reflexivity|apply lor_inr]. Qed.
Lemma Ln_land : forall w a b k, 0 < w -> 0 <= k -> Ln w (Z.land a b) k = Z.land (Ln w a k) (Ln w b k).
Proof. apply (Ln_op Z.land andb); [intros; apply Z.land_spec|reflexivity|apply land_inr]. Qed.
Lemma Ln_lxor : forall w a b k, 0 < w -> 0 <= k -> Ln w (Z.lxor a b) k = Z.lxor (Ln w a k) (Ln w b k).
Proof. apply (Ln_op Z.lxor xorb); [intros; apply Z.lxor_spec|reflexivity|apply lxor_inr]. Qed.
Lemma Ln_ones : forall w k n, 0 < w -> 0 <= k < n -> Ln w (2 ^ (w * n) - 1) k = 2 ^ w - 1.
Proof.
  intros w k n W K. replace (2 ^ (w * n) - 1) with (Z.ones (w * n)) by (rewrite Z.ones_equiv; lia).
  replace (2 ^ w - 1) with (Z.ones w) by (rewrite Z.ones_equiv; lia).
  apply (bits_eq w); [lia|apply Ln_inr; lia|apply ones_inr; lia|]. intros j J. rewrite Ln_bit, !testbit_ones by nia. nia.
Qed.
(** Concrete lane numbers. *)
Lemma in_lt : forall k n, 0 <= k < n -> In k (zseq n).
Proof. intros. apply zseq_In. assumption. Qed.
Ltac kcase k K n :=
  let I := fresh "I" in pose proof (in_lt k n ltac:(lia)) as I; clear K; unfold zseq in I; cbn [Z.to_nat Pos.to_nat Pos.iter_op Nat.add seq map Z.of_nat Pos.of_succ_nat Pos.succ In] in I;
  repeat (destruct I as [<-|I]; [|]); [..|contradiction I].

(** ** Families *)
Lemma zseq_map_len : forall (f : Z -> Z) n, 0 <= n -> Z.of_nat (length (map f (zseq n))) = n.
Proof. intros. rewrite map_length, zseq_len. lia. Qed.
Section Fam.
Context `{FpuOps}.
Variable c : cenv.

Lemma pvec_v : forall vs x n t z, vs x = Some (V (TVec n t) (trunc (tsize (TVec n t)) z)) -> 0 <= tsize t -> 0 <= n ->
  pvec c vs (vX x) n t (Ln (tsize t) z).
Proof. intros vs x n t z E T N. apply pvec_var; try assumption. rewrite E. cbn [tsize]. rewrite Z.mul_comm. reflexivity. Qed.

(** [e] over temporaries 1 : [t1] (from [a]) and 2 : [t2] (from [b]) is the vector [h]. *)
Definition vres (t1 t2 : ty) (a b : Z) (e : dexp) (n : Z) (t : ty) (h : Z -> Z) : Prop :=
  forall vs, vs 1%nat = Some (V t1 (trunc (tsize t1) a)) -> vs 2%nat = Some (V t2 (trunc (tsize t2) b)) -> pvec c vs e n t h.
Definition vres1 (t1 : ty) (a : Z) (e : dexp) (n : Z) (t : ty) (h : Z -> Z) : Prop :=
  forall vs, vs 1%nat = Some (V t1 (trunc (tsize t1) a)) -> pvec c vs e n t h.
Lemma vres_inr : forall t1 t2 a b e n t h, vres t1 t2 a b e n t h -> forall k, 0 <= k < n -> inr (tsize t) (h k).
Proof.
  intros t1 t2 a b e n t h R. pose (vs := fun x : nat => if Nat.eqb x 1 then Some (V t1 (trunc (tsize t1) a)) else Some (V t2 (trunc (tsize t2) b))).
  apply (R vs eq_refl eq_refl).
Qed.
Lemma vres1_inr : forall t1 a e n t h, vres1 t1 a e n t h -> forall k, 0 <= k < n -> inr (tsize t) (h k).
Proof. intros t1 a e n t h R. apply (R (fun _ => Some (V t1 (trunc (tsize t1) a))) eq_refl). Qed.
Lemma vres_ext : forall t1 t2 a b e n t h h', vres t1 t2 a b e n t h -> 0 <= n -> (forall k, 0 <= k < n -> h k = h' k) -> vres t1 t2 a b e n t h'.
Proof. intros t1 t2 a b e n t h h' R N X vs E1 E2. eapply pvec_ext; [apply R; assumption|assumption|exact X]. Qed.
Lemma vres1_ext : forall t1 a e n t h h', vres1 t1 a e n t h -> 0 <= n -> (forall k, 0 <= k < n -> h k = h' k) -> vres1 t1 a e n t h'.
Proof. intros t1 a e n t h h' R N X vs E1. eapply pvec_ext; [apply R; assumption|assumption|exact X]. Qed.
Lemma vres_1 : forall t1 t2 a b e n t h, vres1 t1 a e n t h -> vres t1 t2 a b e n t h.
Proof. intros t1 t2 a b e n t h R vs E1 E2. apply R. assumption. Qed.

End Fam.

Ltac tl := cbn [tsize]; lia.
Ltac pv1 :=
  lazymatch goal with
  | |- pvec _ _ v1 _ _ _ => eapply pvec_v; [eassumption|tl|tl]
  | |- pvec _ _ v2 _ _ _ => eapply pvec_v; [eassumption|tl|tl]
  | |- pvec _ _ (vX _) _ _ _ => eapply pvec_v; [eassumption|tl|tl]
  | |- pvec _ _ (eNull (TVec _ _)) _ _ _ => eapply pvec_null; tl
  | |- pvec _ _ (eNull (TV _ _)) _ _ _ => eapply pvec_null; tl
  | |- pvec _ _ (eSplat _ _ _) _ _ _ => eapply pvec_splat; tl
  | |- pvec _ _ (eAdd _ _) _ _ _ => eapply pvec_add; [pv1|pv1|tl]
  | |- pvec _ _ (eSub _ _) _ _ _ => eapply pvec_sub; [pv1|pv1|tl]
  | |- pvec _ _ (eMul _ _) _ _ _ => eapply pvec_mul; [pv1|pv1|tl]
  | |- pvec _ _ (eBin Add _ _) _ _ _ => eapply pvec_add; [pv1|pv1|tl]
  | |- pvec _ _ (eBin Sub _ _) _ _ _ => eapply pvec_sub; [pv1|pv1|tl]
  | |- pvec _ _ (eBin Mul _ _) _ _ _ => eapply pvec_mul; [pv1|pv1|tl]
  | |- pvec _ _ (eLShr _ _) _ _ _ => eapply pvec_lshr; [pv1|pv1|tl|]
  | |- pvec _ _ (eCmp _ _ _) _ _ _ => eapply pvec_cmp; [pv1|pv1|tl]
  | |- pvec _ _ (eSel _ _ _) _ _ _ => eapply pvec_sel; [pv1|pv1|pv1|tl]
  | |- pvec _ _ (eCast CSExt (TV _ _) _) _ _ _ => eapply pvec_sext; [pv1|tl]
  | |- pvec _ _ (eCast CZExt (TV _ _) _) _ _ _ => eapply pvec_zext; [pv1|tl]
  | |- pvec _ _ (eCast CTrunc (TV _ _) _) _ _ _ => eapply pvec_trunc; [pv1|tl]
  | |- pvec _ _ (eShuf _ _ (EUndef _)) _ _ _ => eapply pvec_shufu; [pv1|tl|]
  | |- pvec _ _ (eShuf _ _ _) _ _ _ => eapply pvec_shuf; [pv1|pv1|tl|]
  end.


Section Fam2.
Context `{FpuOps}.
Variable c : cenv.
Notation vres := (vres c). Notation vres1 := (vres1 c).

(** Wrapping arithmetic. *)
Definition arith_op (op : binop) : option (Z -> Z -> Z) :=
  match op with Add => Some Z.add | Sub => Some Z.sub | Mul => Some Z.mul | _ => None end.
Lemma f_arith : forall op F n w a b, arith_op op = Some F -> 0 <= w -> 0 <= n ->
  vres (TV n w) (TV n w) a b (eBin op v1 v2) n (TInt w) (fun k => U w (F (Ln w a k) (Ln w b k))).
Proof.
  intros op F n w a b O W N vs E1 E2. unfold TV in *. destruct op; try discriminate O; injection O as <-; pv1.
Qed.
(** Bitwise operations: the whole register. *)
Definition bit_op (op : binop) : option (Z -> Z -> Z) :=
  match op with And => Some Z.land | Or => Some Z.lor | Xor => Some Z.lxor | _ => None end.
Lemma f_bit : forall op F n w a b, bit_op op = Some F -> 0 < w -> 0 <= n ->
  vres (TV n w) (TV n w) a b (eBin op v1 v2) n (TInt w) (Ln w (F a b)).
Proof.
  intros op F n w a b O W N vs E1 E2. unfold TV in *. destruct op; try discriminate O; injection O as <-;
    (eapply pvec_bin; [pv1|pv1|tl|]); intros k K; cbn [ibin tsize];
    rewrite ?Ln_land, ?Ln_lor, ?Ln_lxor by lia; (split; [reflexivity|]); [apply land_inr|apply lor_inr|apply lxor_inr]; try lia; apply Ln_inr; lia.
Qed.
Lemma trunc_m1 : forall w, 0 <= w -> trunc w (-1) = 2 ^ w - 1.
Proof. intros w W. unfold trunc. pose proof (pow2_pos w W). symmetry. apply (Z.mod_unique_pos _ _ (-1)); lia. Qed.
Lemma pvec_ones : forall vs n w, 0 < w -> 0 <= n -> pvec c vs (EConst (TV n w) (-1)) n (TInt w) (fun _ => 2 ^ w - 1).
Proof.
  intros vs n w W N. split; [|intros; unfold inr; cbn [tsize]; pose proof (pow2_pos w ltac:(lia)); lia].
  intros s S. unfold ev, TV. cbn [eval tsize]. do 2 f_equal. rewrite trunc_m1 by nia. symmetry. apply vec_is; [lia| |].
  - intros k K. rewrite Z2Nat.id in K by lia. rewrite Z.mul_comm. symmetry. apply Ln_ones; lia.
  - rewrite Z2Nat.id by lia. rewrite Z.mul_comm. unfold inr. pose proof (pow2_pos (n * w) ltac:(nia)). lia.
Qed.
Lemma f_andn : forall n w a b, 0 < w -> 0 <= n -> n * w = 128 ->
  vres (TV n w) (TV n w) a b (eAnd (eVNot n w v1) v2) n (TInt w) (Ln w (Z.land (ones 128 - a mod 2 ^ 128) b)).
Proof.
  intros n w a b W N NW vs E1 E2. unfold TV in *. eapply pvec_ext.
  - eapply pvec_bin; [eapply (pvec_bin c vs Xor _ _ n w _ _ (fun k => Z.lxor (Ln w a k) (2 ^ w - 1))); [pv1|apply pvec_ones; lia|lia|]|pv1|lia|].
    + intros k K. cbn [ibin]. split; [reflexivity|]. apply lxor_inr; [lia|apply Ln_inr; lia|]. unfold inr. pose proof (pow2_pos w ltac:(lia)). lia.
    + intros k K. cbn [ibin]. split; [reflexivity|]. apply land_inr_l; [lia|]. apply lxor_inr; [lia|apply Ln_inr; lia|]. unfold inr. pose proof (pow2_pos w ltac:(lia)). lia.
  - lia.
  - intros k K. cbn [tsize]. rewrite Ln_land by lia. f_equal. apply (bits_eq w); [lia| |apply Ln_inr; lia|].
    + apply lxor_inr; [lia|apply Ln_inr; lia|]. unfold inr. pose proof (pow2_pos w ltac:(lia)). lia.
    + intros j J. rewrite Z.lxor_spec, !Ln_bit by nia. replace (2 ^ w - 1) with (Z.ones w) by (rewrite Z.ones_equiv; lia).
      rewrite testbit_ones by lia. unfold ones. rewrite <- (bnot_val 128 (a mod 2 ^ 128)) by (try lia; apply trunc_range; lia).
      rewrite testbit_bnot by nia. change (a mod 2 ^ 128) with (trunc 128 a). rewrite testbit_trunc by nia.
      replace (w * k + j <? 128) with true by nia. replace (j <? w) with true by lia. apply xorb_true_r.
Qed.
(** Saturation. *)
Lemma f_sat : forall vs n w sign e g, w = 16 \/ w = 32 -> 0 <= n -> pvec c vs e n (TInt w) g ->
  pvec c vs (SaturateTrunc n w e sign) n (TInt (w / 2)) (fun k => if sign then ssat (w / 2) (S_ w (g k)) else usat (w / 2) (S_ w (g k))).
Proof.
  intros vs n w sign e g W N E. eapply pvec_ext.
  - unfold SaturateTrunc. eapply (pvec_trunc c vs _ n w); [|lia]. eapply pvec_sel; [eapply pvec_cmp; [|pv1|lia]|pv1| |tl];
      (eapply pvec_sel; [eapply pvec_cmp; [exact E|pv1|lia]|pv1|exact E|tl]).
  - lia.
  - intros k K. cbn [icmp_sem]. rewrite <- satexp_ok; [reflexivity|assumption|]. apply E. exact K.
Qed.
Lemma sum_fits : forall w x y, 0 < w -> - 2 ^ w <= x + y < 2 ^ w -> S_ (2 * w) (x + y) = x + y.
Proof.
  intros w x y W R. apply S_id; [lia|]. assert (2 ^ w <= 2 ^ (2 * w - 1)) by (apply pow_le2; lia). lia.
Qed.
Lemma S_trunc : forall w z, 0 < w -> S_ w (trunc w z) = S_ w z.
Proof. intros w z W. apply S_congr. apply trunc_trunc. lia. Qed.
Lemma sext_S : forall w w' z, 0 < w <= w' -> inr w z -> S_ w' (sext w w' z) = S_ w z.
Proof.
  intros w w' z W I. unfold sext. rewrite S_trunc by lia. rewrite (S_small w z) by exact I. apply S_id; [lia|].
  pose proof (sgn_range w z ltac:(lia) I). assert (2 ^ (w - 1) <= 2 ^ (w' - 1)) by (apply pow_le2; lia). lia.
Qed.
Definition addsub_op (op : binop) : option (Z -> Z -> Z) := match op with Add => Some Z.add | Sub => Some Z.sub | _ => None end.
Lemma sat_lane : forall op F w (sign : bool) x y, addsub_op op = Some F -> w = 8 \/ w = 16 -> inr w x -> inr w y ->
  let cs := fun z => if sign then sext w (2 * w) z else z in
  S_ (2 * w) (trunc (2 * w) (F (cs x) (cs y))) = F (if sign then S_ w x else x) (if sign then S_ w y else y).
Proof.
  intros op F w sign x y O W X Y cs. rewrite S_trunc by lia.
  assert (B : - 2 ^ w <= F (if sign then S_ w x else x) (if sign then S_ w y else y) < 2 ^ (w + 1)).
  { destruct sign.
    - pose proof (S_range w x ltac:(lia)). pose proof (S_range w y ltac:(lia)). rewrite Z.pow_add_r by lia. pose proof (pow_dbl w ltac:(lia)).
      destruct op; try discriminate O; injection O as <-; lia.
    - unfold inr in *. rewrite Z.pow_add_r by lia. destruct op; try discriminate O; injection O as <-; lia. }
  rewrite <- (S_id (2 * w) (F (if sign then S_ w x else x) (if sign then S_ w y else y))).
  - apply S_congr. unfold cs. destruct sign.
    + rewrite !S_small by assumption. unfold sext. destruct op; try discriminate O; injection O as <-.
      * rewrite trunc_add_l, trunc_add_r by lia. reflexivity.
      * rewrite trunc_sub_l, trunc_sub_r by lia. reflexivity.
    + reflexivity.
  - lia.
  - assert (2 ^ (w + 1) <= 2 ^ (2 * w - 1)) by (apply pow_le2; lia). assert (2 ^ w <= 2 ^ (2 * w - 1)) by (apply pow_le2; lia). lia.
Qed.
Lemma f_addsubsat : forall vs op F (sign : bool) n w e1 e2 x y, addsub_op op = Some F -> w = 8 \/ w = 16 -> 0 <= n ->
  pvec c vs e1 n (TInt w) x -> pvec c vs e2 n (TInt w) y ->
  let cast := if sign then CSExt else CZExt in
  pvec c vs (SaturateTrunc n (2 * w) (eBin op (eCast cast (TV n (2 * w)) e1) (eCast cast (TV n (2 * w)) e2)) sign) n (TInt w)
    (fun k => if sign then ssat w (F (S_ w (x k)) (S_ w (y k))) else usat w (F (x k) (y k))).
Proof.
  intros vs op F sign n w e1 e2 x y O W N E1 E2 cast. replace (TInt w) with (TInt (2 * w / 2)) by (f_equal; lia).
  assert (C : forall e q, pvec c vs e n (TInt w) q -> pvec c vs (eCast cast (TV n (2 * w)) e) n (TInt (2 * w)) (fun k => if sign then sext w (2 * w) (q k) else q k)).
  { intros e q Q. unfold cast. destruct sign; [apply pvec_sext|apply pvec_zext with (w := w)]; try assumption; lia. }
  eapply pvec_ext.
  - apply f_sat; [lia|lia|]. instantiate (1 := fun k => trunc (2 * w) (F ((fun k => if sign then sext w (2 * w) (x k) else x k) k) ((fun k => if sign then sext w (2 * w) (y k) else y k) k))).
    destruct op; try discriminate O; injection O as <-.
    + eapply pvec_add; [apply C; exact E1|apply C; exact E2|lia].
    + eapply pvec_sub; [apply C; exact E1|apply C; exact E2|lia].
  - lia.
  - intros k K. replace (2 * w / 2) with w by lia. pose proof (sat_lane op F w sign (x k) (y k) O W (proj2 E1 k K) (proj2 E2 k K)) as E.
    cbn beta zeta in E |- *. rewrite E. destruct sign; reflexivity.
Qed.
End Fam2.
