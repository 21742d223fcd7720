(** Evaluation of the SIMD lifter's building blocks: extensions, shuffles, halves,
    absolute values, minima and maxima, reductions, table reads. *)

From Coq Require Import ZArith Lia ZifyBool List Bool.
From Verif Require Import Bits IR Facet Dsl Rv64Spec Rv64Sim Rv64Arith X86Spec X86Arith X86Sse X86SseSpec X86SseVec X86SseOps.
From Verif Require Import A64Base A64Simd A64 A64Spec A64Arith A64Sim A64Dp A64Mem A64Sys A64SimdSpec A64SimdVec.
Import ListNotations.
Open Scope Z_scope.
Ltac Zify.zify_post_hook ::= Z.div_mod_to_equations.

(** ** Arithmetic modulo a power of two *)
Lemma tr_add : forall w a b, trunc w (trunc w a + trunc w b) = trunc w (a + b).
Proof. intros. unfold trunc. symmetry. apply Zplus_mod. Qed.
Lemma tr_sub : forall w a b, trunc w (trunc w a - trunc w b) = trunc w (a - b).
Proof. intros. unfold trunc. symmetry. apply Zminus_mod. Qed.
Lemma tr_mul : forall w a b, trunc w (trunc w a * trunc w b) = trunc w (a * b).
Proof. intros. unfold trunc. symmetry. apply Zmult_mod. Qed.
Lemma tr_addl : forall w a b, trunc w (trunc w a + b) = trunc w (a + b).
Proof. intros. unfold trunc. apply Zplus_mod_idemp_l. Qed.
Lemma tr_addr : forall w a b, trunc w (a + trunc w b) = trunc w (a + b).
Proof. intros. unfold trunc. apply Zplus_mod_idemp_r. Qed.
Lemma tr_subr : forall w a b, trunc w (a - trunc w b) = trunc w (a - b).
Proof. intros. unfold trunc. apply Zminus_mod_idemp_r. Qed.
Lemma tr_subl : forall w a b, trunc w (trunc w a - b) = trunc w (a - b).
Proof. intros. unfold trunc. apply Zminus_mod_idemp_l. Qed.
Lemma tr_mull : forall w a b, trunc w (trunc w a * b) = trunc w (a * b).
Proof. intros. unfold trunc. apply Zmult_mod_idemp_l. Qed.
Lemma tr_opp : forall w a, trunc w (0 - a) = trunc w (- a).
Proof. intros. f_equal. Qed.
(** Low bits of a right shift depend only on enough low bits of the operand. *)
Lemma tr_shr : forall w w2 k x y, 0 <= k -> 0 <= w -> w + k <= w2 -> trunc w2 x = trunc w2 y -> trunc w (x / 2 ^ k) = trunc w (y / 2 ^ k).
Proof.
  intros w w2 k x y K W L E.
  assert (Q : forall z, trunc w (z / 2 ^ k) = trunc w2 z / 2 ^ k mod 2 ^ w).
  { intro z. unfold trunc. apply Z.bits_inj'. intros j J. destruct (Z.ltb_spec j w).
    - rewrite !Z.mod_pow2_bits_low by lia. rewrite !Z.div_pow2_bits by lia. rewrite Z.mod_pow2_bits_low by lia. reflexivity.
    - rewrite !Z.mod_pow2_bits_high by lia. reflexivity. }
  rewrite !Q, E. reflexivity.
Qed.

(** Int(x, unsigned). *)
Definition s_ (sg : bool) (w x : Z) : Z := if sg then S_ w x else x.
Lemma tr_s : forall sg w x, 0 < w -> trunc w (if sg : bool then S_ w x else x) = trunc w x.
Proof. intros [] w x W; [apply trunc_S; exact W|reflexivity]. Qed.

Lemma red_add : forall w f n, 0 <= w -> inr w (f 0) -> red (fun x y => trunc w (x + y)) f n = trunc w (red Z.add f n).
Proof.
  intros w f n W I. induction n as [|n IH]; cbn [red]; [symmetry; apply trunc_small; exact I|]. rewrite IH. apply tr_addl.
Qed.
Lemma red_map : forall (P : Z -> Prop) G G' (s : Z -> Z) f n, (forall k, 0 <= k -> P (f k)) -> (forall x y, P x -> P y -> P (G x y) /\ s (G x y) = G' (s x) (s y)) ->
  P (red G f n) /\ s (red G f n) = red G' (fun k => s (f k)) n.
Proof.
  intros P G G' s f n F X. induction n as [|n [I E]]; cbn [red]; [split; [apply F; lia|reflexivity]|].
  destruct (X (red G f n) (f (Z.of_nat (S n))) I (F (Z.of_nat (S n)) ltac:(lia))) as [A B]. split; [exact A|]. rewrite B, E. reflexivity.
Qed.

Section Eval.
Context `{FpuOps}.
Variable c : cenv.
Variable vs : nat -> option rv.
Notation pv := (pv c vs).
Notation pvec := (pvec c vs).
Notation psh := (psh c vs).

Lemma psh_extT : forall sg a h w w' f, psh a h (TInt w) f -> 0 < w < w' -> 0 <= scnt h ->
  psh (eExtT sg (sty h (TInt w')) a) h (TInt w') (fun k => trunc w' (if sg then S_ w (f k) else f k)).
Proof.
  intros sg a h w w' f A W N. destruct sg; unfold eExtT.
  - eapply psh_ext; [apply psh_sext; [exact A|lia]|exact N|]. intros k K. cbn beta. unfold sext. rewrite S_small; [reflexivity|].
    eapply (psh_inr c vs _ _ _ _ k A K).
  - assert (TI : forall k, 0 <= k < scnt h -> trunc w' (f k) = f k).
    { intros k K. apply trunc_small. pose proof (psh_inr c vs _ _ _ _ k A K) as I. cbn [tsize] in I. apply (inr_le w); [lia|exact I]. }
    destruct h as [|n]; cbn [A64SimdVec.psh scnt sty] in *.
    + rewrite (TI 0) by lia. destruct A as [A I]. split; [|cbn [tsize] in *; apply (inr_le w); [lia|exact I]].
      eapply pv_1; [exact A|]. cbn [sem1]. unfold cast_sem, cast_fun. cbn [ty_of ty_eqb]. replace (w =? w') with false by lia. cbn [icast].
      replace (w <=? w') with true by lia. reflexivity.
    + eapply pvec_ext; [apply (pvec_zext c vs _ _ w); [exact A|lia]|exact N|]. intros k K. symmetry. apply TI. exact K.
Qed.
Lemma psh_trunc : forall a h w w' f, psh a h (TInt w) f -> 0 <= w' < w -> psh (eCast CTrunc (sty h (TInt w')) a) h (TInt w') (fun k => trunc w' (f k)).
Proof.
  intros a [|n] w w' f A W; cbn [A64SimdVec.psh sty] in *.
  - destruct A as [A I]. split; [|apply trunc_inr; cbn [tsize]; lia]. eapply pv_1; [exact A|]. cbn [sem1]. unfold cast_sem, cast_fun. cbn [ty_of ty_eqb].
    replace (w =? w') with false by lia. cbn [icast]. replace (w' <=? w) with true by lia. reflexivity.
  - apply (pvec_trunc c vs _ _ w); assumption.
Qed.
Lemma psh_intr1 : forall o a h w f r, psh a h (TInt w) f -> 0 <= w ->
  (forall k, 0 <= k < scnt h -> inr w (f k) -> intr1_sem o w (f k) = IV (r k) /\ inr w (r k)) -> psh (E1 (OIntr1 o) a) h (TInt w) r.
Proof.
  intros o a [|n] w f r A W X; cbn [A64SimdVec.psh scnt] in *.
  - destruct A as [A I]. destruct (X 0 ltac:(lia) I) as [E R]. split; [|exact R]. eapply pv_1; [exact A|]. cbn [sem1]. unfold intr1_rv. cbn [int_shape].
    rewrite E. reflexivity.
  - destruct A as [A I]. split; [|intros k K; apply (X k K); apply I; exact K]. eapply pv_1; [exact A|]. cbn [sem1]. unfold intr1_rv. cbn [int_shape tsize].
    apply vec1_ok; try assumption. intros k K. apply (X k K). apply I. exact K.
Qed.
Lemma psh_sel' : forall q a b h t (x : Z -> bool) f g r, psh q h (TInt 1) (fun j => b2z (x j)) -> psh a h t f -> psh b h t g -> 1 <= tsize t -> 0 <= scnt h ->
  (forall k, 0 <= k < scnt h -> inr (tsize t) (f k) -> inr (tsize t) (g k) -> (if x k then f k else g k) = r k) -> psh (eSel q a b) h t r.
Proof.
  intros q a b h t x f g r Q A B T N X. eapply psh_ext; [eapply psh_sel; [exact Q|exact A|exact B|exact T]|exact N|].
  intros k K. apply X; [exact K|eapply psh_inr; eassumption|eapply psh_inr; eassumption].
Qed.
Lemma abs_lane : forall w x, 0 < w -> inr w x -> (if sgn w x <? sgn w 0 then trunc w (- x) else x) = trunc w (Z.abs (S_ w x)).
Proof.
  intros w x W I. pose proof (pow2_pos w ltac:(lia)) as P. pose proof (S_range w x W) as R. rewrite <- (S_small w x) by exact I.
  replace (sgn w 0) with 0 by (unfold sgn; pose proof (pow2_pos (w - 1) ltac:(lia)); destruct (Z.ltb_spec 0 (2 ^ (w - 1))); lia).
  pose proof (trunc_S w x W) as T. destruct (Z.ltb_spec (S_ w x) 0).
  - rewrite Z.abs_neq by lia. rewrite <- (tr_opp w x), <- (tr_opp w (S_ w x)). rewrite <- (tr_subr w 0 (S_ w x)), <- (tr_subr w 0 x), T. reflexivity.
  - rewrite Z.abs_eq by lia. rewrite T. symmetry. apply trunc_small. exact I.
Qed.
Lemma psh_abs : forall a h w f, psh a h (TInt w) f -> 0 < w -> 0 <= scnt h ->
  psh (AbsT (sty h (TInt w)) a) h (TInt w) (fun k => trunc w (Z.abs (S_ w (f k)))).
Proof.
  intros a h w f A W N. unfold AbsT. eapply psh_sel'; [eapply psh_cmp; [exact A|apply psh_null; cbn; lia|lia]|apply psh_neg; [exact A|lia]|exact A|cbn [tsize]; lia|exact N|].
  cbn beta. intros k K _ I. apply abs_lane; assumption.
Qed.
Lemma S_inj : forall w a b, 0 < w -> inr w a -> inr w b -> S_ w a = S_ w b -> a = b.
Proof. intros w a b W A B E. rewrite <- (trunc_small w a), <- (trunc_small w b), <- (trunc_S w a), <- (trunc_S w b), E by assumption. reflexivity. Qed.
Lemma U_s : forall sg w x, 0 < w -> inr w x -> trunc w (if sg : bool then S_ w x else x) = x.
Proof. intros [] w x W I; [rewrite trunc_S by exact W|]; apply trunc_small; exact I. Qed.
Lemma minmax_lane : forall (sg mn : bool) w x y, 0 < w -> inr w x -> inr w y ->
  (if icmp_sem (if mn then if sg then SLT else ULT else if sg then SGT else UGT) w x y then x else y) =
  trunc w ((if mn then Z.min else Z.max) (if sg then S_ w x else x) (if sg then S_ w y else y)).
Proof.
  intros sg mn w x y W X Y. pose proof (U_s sg w x W X) as UX. pose proof (U_s sg w y W Y) as UY.
  destruct sg, mn; cbn [icmp_sem]; rewrite ?S_small in * by assumption.
  - destruct (Z.ltb_spec (sgn w x) (sgn w y)); [rewrite Z.min_l by lia|rewrite Z.min_r by lia]; congruence.
  - destruct (Z.ltb_spec (sgn w y) (sgn w x)); [rewrite Z.max_l by lia|rewrite Z.max_r by lia]; congruence.
  - destruct (Z.ltb_spec x y); [rewrite Z.min_l by lia|rewrite Z.min_r by lia]; congruence.
  - destruct (Z.ltb_spec y x); [rewrite Z.max_l by lia|rewrite Z.max_r by lia]; congruence.
Qed.
Lemma psh_minmax : forall sg mn a b h w f g, psh a h (TInt w) f -> psh b h (TInt w) g -> 0 < w -> 0 <= scnt h ->
  psh (MinMax a b sg mn) h (TInt w) (fun k => trunc w ((if mn then Z.min else Z.max) (if sg then S_ w (f k) else f k) (if sg then S_ w (g k) else g k))).
Proof.
  intros sg mn a b h w f g A B W N. unfold MinMax. eapply psh_sel'; [eapply psh_cmp; [exact A|exact B|lia]|exact A|exact B|cbn [tsize]; lia|exact N|].
  cbn beta. intros k K I J. apply minmax_lane; assumption.
Qed.
Lemma psh_shrc : forall (sg : bool) a h w f z, psh a h (TInt w) f -> 0 <= z < w -> 0 <= scnt h ->
  psh (eBin (if sg then AShr else LShr) a (eCst h w z)) h (TInt w) (fun k => trunc w ((if sg then S_ w (f k) else f k) / 2 ^ z)).
Proof.
  intros sg a h w f z A Z0 N.
  assert (C : psh (eCst h w z) h (TInt w) (fun _ => z)).
  { eapply psh_ext; [apply psh_cst; lia|exact N|]. intros. cbn beta. apply trunc_small. unfold inr. pose proof (Z.pow_gt_lin_r 2 w ltac:(lia) ltac:(lia)). lia. }
  destruct sg; [apply psh_ashr; assumption|]. eapply psh_ext; [apply psh_lshr; [exact A|exact C|exact Z0]|exact N|].
  intros k K. cbn beta. symmetry. apply trunc_small. apply div_inr; [lia|lia|]. eapply (psh_inr c vs _ _ _ _ k A K).
Qed.
Lemma psh_shlc : forall a h w f z, psh a h (TInt w) f -> 0 <= z < w -> 0 <= scnt h ->
  psh (eShl a (eCst h w z)) h (TInt w) (fun k => trunc w (f k * 2 ^ z)).
Proof.
  intros a h w f z A Z0 N. apply psh_shl; [exact A| |exact Z0].
  eapply psh_ext; [apply psh_cst; lia|exact N|]. intros. cbn beta. apply trunc_small. unfold inr. pose proof (Z.pow_gt_lin_r 2 w ltac:(lia) ltac:(lia)). lia.
Qed.

(** ** Shuffles *)
Lemma nth_mapz : forall F n k, 0 <= k < n -> nth (Z.to_nat k) (map F (zseq n)) 0 = F k.
Proof.
  intros F n k K. rewrite (nth_indep _ 0 (F 0)) by (rewrite map_length, zseq_len; lia). rewrite map_nth. f_equal.
  unfold zseq. change 0 with (Z.of_nat 0). rewrite map_nth, seq_nth by lia. lia.
Qed.
Lemma psh_shuf : forall m F n' a b n t f g r, m = map F (zseq n') -> pvec a n t f -> pvec b n t g -> 0 <= tsize t -> 0 <= n' ->
  (forall k, 0 <= k < n' -> 0 <= F k < 2 * n /\ (if F k <? n then f (F k) else g (F k - n)) = r k) ->
  pvec (eShuf m a b) n' t r.
Proof.
  intros m F n' a b n t f g r -> A B T N R.
  assert (L : Z.of_nat (length (map F (zseq n'))) = n') by (rewrite map_length, zseq_len; lia).
  assert (FB : forallb (fun i => (0 <=? i) && (i <? 2 * n)) (map F (zseq n')) = true).
  { apply forallb_forall. intros j J. apply in_map_iff in J. destruct J as (k & <- & K). apply zseq_In in K. destruct (R k K) as [Q _]. lia. }
  pose proof (pvec_shuf c vs _ a b n t f g A B T FB) as P. rewrite L in P. eapply pvec_ext; [exact P|exact N|].
  intros k K. unfold pick. rewrite nth_mapz by exact K. apply R. exact K.
Qed.
Lemma zseq_id : forall n, zseq n = map (fun k => k) (zseq n).
Proof. intros. symmetry. apply map_id. Qed.
Lemma Halve_ok : forall v a f, esize v <> 64 -> pvec a (elems v) (TInt (esize v)) f ->
  pvec (Halve v false a) (64 / esize v) (TInt (esize v)) (fun k => f (if isq v then 64 / esize v + k else k)).
Proof.
  intros v a f NE A. unfold Halve. rewrite ty_va.
  eapply (psh_shuf _ (fun k => if isq v then 64 / esize v + k else k)); [|exact A|apply pvec_null| | |];
    try (cbn [tsize]; pose proof (es_pos v); lia).
  - destruct v; try reflexivity; exfalso; apply NE; reflexivity.
  - intros k K. assert (0 <= (if isq v then 64 / esize v + k else k) < elems v).
    { clear - K NE. unfold elems in *; destruct v; cbn [isq esize] in *; try (exfalso; apply NE; reflexivity); change (128 / 8) with 16 in *; change (128 / 16) with 8 in *; change (128 / 32) with 4 in *; change (64 / 8) with 8 in *; change (64 / 16) with 4 in *; change (64 / 32) with 2 in *; lia. }
    split; [lia|]. destruct (Z.ltb_spec (if isq v then 64 / esize v + k else k) (elems v)); [reflexivity|lia].
Qed.

(** ** Reductions *)
Lemma zseq1 : forall n, 0 <= n -> map (fun k => k + 1) (zseq n) = map Z.of_nat (seq 1 (Z.to_nat n)).
Proof. intros n N. unfold zseq. rewrite map_map, <- seq_shift, map_map. apply map_ext. intro. lia. Qed.
Lemma reduce_ok : forall op G a n w f, pvec a n (TInt w) f -> 1 <= n -> 0 <= w ->
  (forall a b x y, pv a (V (TInt w) x) -> pv b (V (TInt w) y) -> inr w x -> inr w y -> pv (op a b) (V (TInt w) (G x y)) /\ inr w (G x y)) ->
  psh (eReduce op n a) Sc (TInt w) (fun _ => red G f (Z.to_nat (n - 1))).
Proof.
  intros op G a n w f A N W X. cbn [A64SimdVec.psh]. unfold eReduce. rewrite zseq1 by lia.
  assert (Q : forall m, (m <= Z.to_nat (n - 1))%nat ->
    pv (fold_left (fun acc i => op acc (E1 (OExtract i) a)) (map Z.of_nat (seq 1 m)) (E1 (OExtract 0) a)) (V (TInt w) (red G f m)) /\ inr w (red G f m)).
  { induction m as [|m IH]; intros M.
    - cbn. split; [apply (pv_extract c vs 0 a n (TInt w)); [exact A|cbn; lia|lia]|]. destruct A as [_ A]. apply A. lia.
    - rewrite seq_S, map_app, fold_left_app. cbn [map fold_left red]. destruct (IH ltac:(lia)) as [E I]. change (1 + m)%nat with (S m).
      apply X; [exact E|apply (pv_extract c vs _ a n (TInt w)); [exact A|cbn; lia|lia]|exact I|]. destruct A as [_ A]. apply A. lia. }
  apply Q. lia.
Qed.
(** ** Lane-by-lane construction *)
Lemma inserts_ok : forall n t a0 f0 (e : Z -> dexp) r, pvec a0 n t f0 -> 0 <= tsize t -> 0 <= n ->
  (forall k, 0 <= k < n -> pv (e k) (V t (r k)) /\ inr (tsize t) (r k)) ->
  pvec (fold_left (fun acc k => E2 (OInsert k) acc (e k)) (zseq n) a0) n t r.
Proof.
  intros n t a0 f0 e r A T N X.
  assert (Q : forall m, 0 <= m <= n -> pvec (fold_left (fun acc k => E2 (OInsert k) acc (e k)) (zseq m) a0) n t (fun k => if k <? m then r k else f0 k)).
  { intros m M. assert (M0 : 0 <= m) by lia. revert M. pattern m. apply natlike_ind; [| |exact M0].
    - intros _. eapply pvec_ext; [exact A|lia|]. intros k K. replace (k <? 0) with false by lia. reflexivity.
    - intros x X0 IH M. rewrite <- Z.add_1_r, zseq_S, fold_left_app by lia. cbn [fold_left].
      destruct (X x ltac:(lia)) as [E I]. eapply pvec_ext; [eapply (pvec_insert c vs); [apply IH; lia|exact E|exact T|exact I|lia]|lia|].
      intros k K. cbn beta. destruct (Z.eqb_spec k x); [subst; replace (x <? x + 1) with true by lia; reflexivity|].
      replace (k <? x + 1) with (k <? x) by lia. reflexivity. }
  eapply pvec_ext; [apply (Q n); lia|lia|]. intros k K. cbn beta. replace (k <? n) with true by lia. reflexivity.
Qed.
Lemma eLanes_ok : forall n w (e : Z -> dexp) r, 0 <= w -> 0 <= n -> (forall k, 0 <= k < n -> pv (e k) (V (TInt w) (r k)) /\ inr w (r k)) ->
  pvec (eLanes n w e) n (TInt w) r.
Proof. intros. unfold eLanes. eapply inserts_ok; [apply pvec_null; cbn; lia|cbn; lia|lia|assumption]. Qed.
Lemma dyn_ok : forall n tbl idx f x, pvec tbl n (TInt 8) f -> pv idx (V (TInt 8) x) -> inr 8 x -> 0 <= n <= 256 ->
  pv (eExtractDyn n tbl idx) (if x <? n then V (TInt 8) (f x) else Poison (TInt 8)).
Proof.
  intros n tbl idx f x A E I N. unfold eExtractDyn.
  assert (Q : forall m, 0 <= m <= n -> pv (fold_left (fun acc k => eSel (eCmp EQ idx (cI 8 k)) (E1 (OExtract k) tbl) acc) (zseq m) (EUndef (TInt 8)))
    (if x <? m then V (TInt 8) (f x) else Poison (TInt 8))).
  { intros m M. assert (M0 : 0 <= m) by lia. revert M. pattern m. apply natlike_ind; [| |exact M0].
    - intros _. replace (x <? 0) with false by (unfold inr in I; lia). intros s S0. reflexivity.
    - intros y Y0 IH M. rewrite <- Z.add_1_r, zseq_S, fold_left_app by lia. cbn [fold_left]. specialize (IH ltac:(lia)).
      assert (CI : pv (cI 8 y) (V (TInt 8) y)) by (rewrite <- (trunc_small 8 y) at 2 by (unfold inr; change (2 ^ 8) with 256; lia); apply (pv_const c vs (TInt 8))).
      assert (CE : pv (eCmp EQ idx (cI 8 y)) (V (TInt 1) (b2z (x =? y)))).
      { eapply pv_2; [exact E|exact CI|]. reflexivity. }
      eapply pv_3; [exact CE|eapply (pv_extract c vs _ _ n (TInt 8)); [exact A|cbn; lia|lia]|exact IH|].
      cbn [sem3]. unfold sel_sem. cbn [ty_of]. destruct (Z.ltb_spec x y); cbn [ty_of ty_eqb]; rewrite Z.eqb_refl.
      + replace (x =? y) with false by lia. replace (x <? y + 1) with true by lia. reflexivity.
      + destruct (Z.eqb_spec x y); [subst; replace (y <? y + 1) with true by lia; reflexivity|]. replace (x <? y + 1) with false by lia. reflexivity. }
  apply Q. lia.
Qed.
End Eval.
