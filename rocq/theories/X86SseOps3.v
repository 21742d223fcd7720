(** Values computed by the lifted SSE instructions: shuffles, shifts, sums. *)

From Coq Require Import ZArith Lia ZifyBool List Bool.
From Verif Require Import Bits IR Facet Dsl Rv64 Rv64Spec Rv64Sim Rv64Arith X86 X86Spec X86Arith X86Sim X86Ops X86Sse X86SseSpec X86SseVec X86SseSim X86SseOps X86SseOps2.
Import ListNotations.
Open Scope Z_scope.
Ltac Zify.zify_post_hook ::= Z.div_mod_to_equations.

(** Fields of an immediate; the decoder may have sign-extended it. *)
Lemma land_mod : forall z n, 0 <= n -> Z.land z (2 ^ n - 1) = z mod 2 ^ n.
Proof. intros z n N. rewrite <- Z.land_ones by lia. f_equal. rewrite Z.ones_equiv. lia. Qed.
Lemma U8_mod : forall z n, 0 <= n <= 8 -> z mod 2 ^ n = U 8 z mod 2 ^ n.
Proof. intros z n N. change U with trunc. symmetry. apply trunc_trunc_le. lia. Qed.
Lemma field_spec : forall imm s n, 0 <= s -> 0 <= n -> s + n <= 8 -> Z.land (Z.shiftr imm s) (2 ^ n - 1) = (U 8 imm / 2 ^ s) mod 2 ^ n.
Proof.
  intros imm s n S N L. rewrite land_mod by lia. rewrite Z.shiftr_div_pow2 by lia. unfold U.
  replace (2 ^ 8) with (2 ^ s * 2 ^ (8 - s)) by (rewrite <- Z.pow_add_r by lia; f_equal; lia).
  rewrite Z.rem_mul_r by (try apply Z.pow_nonzero; try apply Z.pow_pos_nonneg; lia).
  rewrite Z.mul_comm, Z.div_add by (apply Z.pow_nonzero; lia).
  rewrite (Z.div_small (imm mod 2 ^ s)) by (apply Z.mod_pos_bound; apply Z.pow_pos_nonneg; lia). rewrite Z.add_0_l.
  symmetry. apply (trunc_trunc_le n (8 - s)). lia.
Qed.
Lemma sel2_spec : forall imm k, 0 <= k < 4 -> sel2 imm k = (U 8 imm / 4 ^ k) mod 4.
Proof.
  intros imm k K. unfold sel2. change 3 with (2 ^ 2 - 1). rewrite field_spec by lia. rewrite Z.pow_mul_r by lia. reflexivity.
Qed.
Lemma odd_field : forall imm s, 0 <= s < 8 -> Z.odd (Z.shiftr imm s) = Z.odd (U 8 imm / 2 ^ s).
Proof.
  intros imm s S. rewrite <- Z.bit0_odd, Z.shiftr_spec by lia. rewrite <- Z.bit0_odd, <- Z.shiftr_div_pow2, Z.shiftr_spec by lia.
  rewrite Z.add_0_l. change U with trunc. rewrite testbit_trunc by lia. replace (s <? 8) with true by lia. reflexivity.
Qed.
(** Shifted lanes. *)
Lemma Ln_shr : forall w z k s, 0 < w -> 0 <= k -> 0 <= s -> Ln w (z / 2 ^ (w * s)) k = Ln w z (k + s).
Proof.
  intros w z k s W K S. unfold Ln. rewrite Z.div_div by (try apply Z.pow_nonzero; try apply Z.pow_pos_nonneg; nia).
  rewrite <- Z.pow_add_r by nia. do 3 f_equal. lia.
Qed.
Lemma Ln_shl : forall w z k s, 0 < w -> 0 <= k -> 0 <= s -> Ln w (z * 2 ^ (w * s)) k = if k <? s then 0 else Ln w z (k - s).
Proof.
  intros w z k s W K S. apply (bits_eq w); [lia|apply Ln_inr; lia| |].
  - destruct (k <? s); [|apply Ln_inr; lia]. unfold inr. pose proof (pow2_pos w ltac:(lia)). lia.
  - intros j J. rewrite Ln_bit by lia. rewrite Z.mul_pow2_bits by nia. destruct (Z.ltb_spec k s).
    + rewrite Z.bits_0. apply Z.testbit_neg_r. nia.
    + rewrite Ln_bit by lia. f_equal. nia.
Qed.
Lemma Ln_trunc : forall w W z k, 0 < w -> 0 <= k -> w * (k + 1) <= W -> Ln w (z mod 2 ^ W) k = Ln w z k.
Proof.
  intros w W z k P K L. apply (bits_eq w); [lia|apply Ln_inr; lia|apply Ln_inr; lia|]. intros j J. rewrite !Ln_bit by lia.
  change (z mod 2 ^ W) with (trunc W z). rewrite testbit_trunc by nia. replace (w * k + j <? W) with true by nia. reflexivity.
Qed.
Lemma Ln_high : forall w n z k, 0 < w -> 0 <= n <= k -> inr (w * n) z -> Ln w z k = 0.
Proof.
  intros w n z k W K I. unfold Ln. rewrite Z.div_small; [apply Zmod_0_l|]. unfold inr in I.
  assert (2 ^ (w * n) <= 2 ^ (w * k)) by (apply pow_le2; nia). lia.
Qed.
Lemma Ln_add : forall w n a b k, 0 < w -> 0 <= n -> 0 <= k -> inr (w * n) b ->
  Ln w (a * 2 ^ (w * n) + b) k = if k <? n then Ln w b k else Ln w a (k - n).
Proof.
  intros w n a b k W N K I. apply (bits_eq w); [lia|apply Ln_inr; lia|destruct (k <? n); apply Ln_inr; lia|].
  intros j J. rewrite Ln_bit by lia. rewrite <- (shl_lor (w * n) a b) by (nia || exact I). rewrite Z.lor_spec, Z.shiftl_spec by nia.
  destruct (Z.ltb_spec k n).
  - rewrite Z.testbit_neg_r by nia. cbn [orb]. rewrite Ln_bit by lia. reflexivity.
  - rewrite (testbit_inr_high (w * n) b) by (nia || exact I). rewrite orb_false_r, Ln_bit by lia. f_equal. nia.
Qed.

Section Fam.
Context `{FpuOps}.
Variable c : cenv.
Notation vres := (vres c). Notation vres1 := (vres1 c).

(** Shuffles of the two operands, or of one. *)
Lemma f_shuf2 : forall N m n t a b, 0 <= tsize t -> 0 <= n -> 0 <= N -> (forall k, 0 <= k < N -> 0 <= m k < 2 * n) ->
  vres (TVec n t) (TVec n t) a b (eShuf (map m (zseq N)) v1 v2) N t (fun k => if m k <? n then Ln (tsize t) a (m k) else Ln (tsize t) b (m k - n)).
Proof. intros N m n t a b T P PN M vs E1 E2. apply pvec_shufm; try assumption; pv1. Qed.
Lemma f_shuf1 : forall N m n t b, 0 <= tsize t -> 0 <= n -> 0 <= N -> (forall k, 0 <= k < N -> 0 <= m k < n) ->
  vres1 (TVec n t) b (eShuf (map m (zseq N)) v1 v1) N t (fun k => Ln (tsize t) b (m k)).
Proof.
  intros N m n t b T P PN M vs E1. eapply pvec_ext.
  - apply (pvec_shufm c vs N m _ _ n t (Ln (tsize t) b) (Ln (tsize t) b)); try assumption; try pv1. intros k K. specialize (M k K). lia.
  - exact PN.
  - intros k K. cbn beta. specialize (M k K). replace (m k <? n) with true by lia. reflexivity.
Qed.
(** Shuffle with zero. *)
Lemma f_shufz : forall N m n t b, 0 <= tsize t -> 0 <= n -> 0 <= N -> (forall k, 0 <= k < N -> 0 <= m k < 2 * n) ->
  vres1 (TVec n t) b (eShuf (map m (zseq N)) v1 (eNull (TVec n t))) N t (fun k => if m k <? n then Ln (tsize t) b (m k) else 0).
Proof.
  intros N m n t b T P PN M vs E1. eapply pvec_ext.
  - apply (pvec_shufm c vs N m _ _ n t (Ln (tsize t) b) (fun _ => 0)); try assumption; pv1.
  - exact PN.
  - reflexivity.
Qed.
Lemma f_shufz' : forall N m n t b, 0 <= tsize t -> 0 <= n -> 0 <= N -> (forall k, 0 <= k < N -> 0 <= m k < 2 * n) ->
  vres1 (TVec n t) b (eShuf (map m (zseq N)) (eNull (TVec n t)) v1) N t (fun k => if m k <? n then 0 else Ln (tsize t) b (m k - n)).
Proof.
  intros N m n t b T P PN M vs E1. eapply pvec_ext.
  - apply (pvec_shufm c vs N m _ _ n t (fun _ => 0) (Ln (tsize t) b)); try assumption; pv1.
  - exact PN.
  - reflexivity.
Qed.
(** Insertions. *)
Lemma f_insert : forall i n t a b, 0 <= tsize t -> 0 <= i < n ->
  vres (TVec n t) t a b (E2 (OInsert i) v1 v2) n t (fun k => if k =? i then trunc (tsize t) b else Ln (tsize t) a k).
Proof.
  intros i n t a b T I vs E1 E2. eapply pvec_insert; [pv1| |assumption|apply trunc_inr; assumption|assumption].
  apply pv_var. exact E2.
Qed.
Lemma f_ins0 : forall n t b, 0 <= tsize t -> 0 < n ->
  vres1 t b (E2 (OInsert 0) (eNull (TVec n t)) v1) n t (fun k => if k =? 0 then trunc (tsize t) b else 0).
Proof.
  intros n t b T N vs E1. eapply pvec_ext.
  - eapply pvec_insert; [pv1| |assumption|apply trunc_inr; assumption|lia]. apply pv_var. exact E1.
  - lia.
  - reflexivity.
Qed.
(** Whole register of a vector type. *)
Lemma f_var : forall n t b, 0 <= tsize t -> 0 <= n -> vres1 (TVec n t) b v1 n t (Ln (tsize t) b).
Proof. intros n t b T N vs E1. pv1. Qed.

(** Element shifts. *)
Lemma pv_scalar_sel : forall vs k a b q x y, pv c vs k (V (TInt 1) (b2z q)) -> pv c vs a x -> pv c vs b y -> ty_of x = ty_of y ->
  pv c vs (eSel k a b) (if q then x else y).
Proof.
  intros vs k a b q x y K A B T. eapply pv_3; [exact K|exact A|exact B|]. cbn [sem3]. unfold sel_sem. rewrite T, ty_eqb_refl.
  cbn [ty_of]. destruct q; reflexivity.
Qed.
Lemma pv_cmp : forall vs p a b w x y, pv c vs a (V (TInt w) x) -> pv c vs b (V (TInt w) y) -> pv c vs (eCmp p a b) (V (TInt 1) (b2z (icmp_sem p w x y))).
Proof.
  intros vs p a b w x y A B. eapply pv_2; [exact A|exact B|]. cbn [sem2]. unfold cmp_sem, same2. cbn [ty_of]. rewrite ty_eqb_refl.
  reflexivity.
Qed.
Lemma pv_trunc : forall vs w a x, pv c vs a (V (TInt 64) x) -> 0 < w <= 64 -> inr 64 x -> pv c vs (eTrunc w a) (V (TInt w) (trunc w x)).
Proof.
  intros vs w a x A W I. eapply pv_1; [exact A|]. cbn [sem1]. unfold cast_sem, cast_fun. cbn [ty_of ty_eqb].
  destruct (Z.eqb_spec 64 w) as [<-|N]; [rewrite trunc_small by exact I; reflexivity|]. cbn [icast]. replace (w <=? 64) with true by lia. reflexivity.
Qed.
Lemma shift_any : forall vs op n w x s, op = Shl \/ op = LShr -> 0 < w -> 0 <= n ->
  pvec c vs v1 n (TInt w) x -> pv c vs s (V (TInt w) 0) \/ True ->
  forall z, pv c vs s (V (TInt w) z) -> exists v, pv c vs (eBin op v1 (E1 (OSplat n) s)) v /\ ty_of v = TVec n (TInt w).
Proof.
  intros vs op n w x s O W N X _ z S.
  assert (SP : pv c vs (E1 (OSplat n) s) (V (TVec n (TInt w)) (unlanes w (repeat z (Z.to_nat n))))).
  { eapply pv_1; [exact S|]. reflexivity. }
  assert (Q : forall (F : Z -> Z -> ires) (l l' : list Z), (forall p q, F p q <> IU) -> exists v, of_lanes (TVec n (TInt w)) w (seq_ires (map2 F l l')) = Ok v /\ ty_of v = TVec n (TInt w)).
  { intros F l l' NU. assert (R : exists o, seq_ires (map2 F l l') = Ok o).
    { unfold map2. induction (combine l l') as [|q r IH]; [eexists; reflexivity|]. cbn [map seq_ires]. destruct IH as [o ->].
      destruct (F (fst q) (snd q)) eqn:E; [destruct o; eexists; reflexivity|eexists; reflexivity|exfalso; eapply NU; exact E]. }
    destruct R as [[o|] ->]; eexists; split; reflexivity. }
  destruct X as [X _]. destruct (Q (ibin op w) (lanes n w (vec w x (Z.to_nat n))) (lanes n w (unlanes w (repeat z (Z.to_nat n))))) as (v & E & T).
  { intros p q. destruct O as [-> | ->]; cbn [ibin]; destruct (q <? w); discriminate. }
  exists v. split; [|exact T]. eapply pv_2; [exact X|exact SP|]. cbn [sem2]. unfold bin_sem, same2. cbn [ty_of]. rewrite ty_eqb_refl. cbn [int_shape tsize].
  exact E.
Qed.
Definition shift_exp (op : binop) (n w : Z) : dexp :=
  let sar := match op with AShr => true | _ => false end in
  let max := cI 64 (w - 1) in
  let shift := if sar then eSel (eCmp UGT v2 max) max v2 else v2 in
  let res := eBin op v1 (E1 (OSplat n) (eTrunc w shift)) in
  if sar then res else eSel (eCmp ULT shift (cI 64 w)) res (eNull (TV n w)).
Lemma f_shift : forall op (F : Z -> Z -> Z) big n w a s,
  (op = Shl /\ (forall x k, F x k = U w (x * 2 ^ k)) /\ big = (fun _ => 0)) \/
  (op = LShr /\ (forall x k, F x k = x / 2 ^ k) /\ big = (fun _ => 0)) \/
  (op = AShr /\ (forall x k, F x k = U w (S_ w x / 2 ^ k)) /\ big = (fun x => mask_if w (S_ w x <? 0))) ->
  8 <= w <= 64 -> 0 <= n -> inr 64 s ->
  vres (TV n w) (TInt 64) a s (shift_exp op n w) n (TInt w) (fun k => if s <? w then F (Ln w a k) s else big (Ln w a k)).
Proof.
  intros op F big n w a s O W N IS vs A1 A2. unfold TV in A1. cbn [tsize] in A2. rewrite (trunc_small 64 s IS) in A2.
  assert (W64 : inr 64 w) by (unfold inr; assert (64 < 2 ^ 64) by reflexivity; lia).
  assert (X : pvec c vs v1 n (TInt w) (Ln w a)) by pv1.
  assert (V2 : pv c vs v2 (V (TInt 64) s)) by (apply pv_var; exact A2).
  assert (CW : forall z, inr 64 z -> pv c vs (cI 64 z) (V (TInt 64) z)).
  { intros z Z. pose proof (pv_const c vs (TInt 64) z) as P. cbn [tsize] in P. rewrite trunc_small in P by exact Z. exact P. }
  assert (TS : forall s', 0 <= s' < w -> trunc w s' = s').
  { intros s' S'. apply trunc_id. assert (w < 2 ^ w) by (apply Z.pow_gt_lin_r; lia). lia. }
  assert (SPL : forall e s', inr 64 s' -> s' < w -> pv c vs e (V (TInt 64) s') -> pvec c vs (E1 (OSplat n) (eTrunc w e)) n (TInt w) (fun _ => s')).
  { intros e s' I' L' E'. unfold inr in I'. apply pvec_splatv; [|lia|].
    - rewrite <- (TS s') by lia. apply pv_trunc; [exact E'|lia|exact I'].
    - rewrite <- (TS s') by lia. apply trunc_inr. lia. }
  destruct O as [[-> [HF ->]]|[[-> [HF ->]]|[-> [HF ->]]]]; unfold shift_exp.
  - destruct (Z.ltb_spec s w) as [L|L].
    + eapply pvec_ext; [eapply pvec_sel1; [apply pv_cmp; [exact V2|apply CW; exact W64]| |apply pvec_null; tl]| |].
      * eapply (pvec_bin c vs Shl _ _ n w _ _ (fun k => trunc w (Z.shiftl (Ln w a k) s))); [exact X|apply SPL; [exact IS|exact L|exact V2]|lia|].
        intros k K. cbn [ibin]. replace (s <? w) with true by lia. split; [reflexivity|apply trunc_inr; lia].
      * lia.
      * intros k K. cbn beta. cbn [icmp_sem]. replace (s <? w) with true by lia. rewrite HF. unfold inr in IS. rewrite Z.shiftl_mul_pow2 by lia. reflexivity.
    + destruct (shift_any vs Shl n w (Ln w a) (eTrunc w v2) ltac:(auto) ltac:(lia) N X (or_intror Logic.I) (trunc w s) (pv_trunc vs w v2 s V2 ltac:(lia) IS)) as (v & EV & T).
      pose proof (pvec_null c vs n (TInt w) ltac:(tl)) as [NV NI]. split.
      * pose proof (pv_scalar_sel vs _ _ _ _ _ _ (pv_cmp vs ULT _ _ _ _ _ V2 (CW w W64)) EV NV T) as P. cbn [icmp_sem] in P.
        replace (s <? w) with false in P by lia. exact P.
      * exact NI.
  - destruct (Z.ltb_spec s w) as [L|L].
    + eapply pvec_ext; [eapply pvec_sel1; [apply pv_cmp; [exact V2|apply CW; exact W64]| |apply pvec_null; tl]| |].
      * eapply (pvec_lshr c vs _ _ n w); [exact X|apply SPL; [exact IS|exact L|exact V2]|lia|intros; exact L].
      * lia.
      * intros k K. cbn beta. cbn [icmp_sem]. replace (s <? w) with true by lia. rewrite HF. reflexivity.
    + destruct (shift_any vs LShr n w (Ln w a) (eTrunc w v2) ltac:(auto) ltac:(lia) N X (or_intror Logic.I) (trunc w s) (pv_trunc vs w v2 s V2 ltac:(lia) IS)) as (v & EV & T).
      pose proof (pvec_null c vs n (TInt w) ltac:(tl)) as [NV NI]. split.
      * pose proof (pv_scalar_sel vs _ _ _ _ _ _ (pv_cmp vs ULT _ _ _ _ _ V2 (CW w W64)) EV NV T) as P. cbn [icmp_sem] in P.
        replace (s <? w) with false in P by lia. exact P.
      * exact NI.
  - assert (IM : inr 64 (w - 1)) by (unfold inr in *; lia).
    pose proof (pv_scalar_sel vs _ _ _ _ _ _ (pv_cmp vs UGT _ _ _ _ _ V2 (CW _ IM)) (CW _ IM) V2 eq_refl) as SH. cbn [icmp_sem] in SH.
    replace (if w - 1 <? s then V (TInt 64) (w - 1) else V (TInt 64) s) with (V (TInt 64) (Z.min s (w - 1))) in SH by (destruct (Z.ltb_spec (w - 1) s); [rewrite Z.min_r by lia|rewrite Z.min_l by lia]; reflexivity).
    unfold inr in IS.
    eapply pvec_ext.
    + eapply (pvec_bin c vs AShr _ _ n w _ _ (fun k => trunc w (Z.shiftr (sgn w (Ln w a k)) (Z.min s (w - 1))))); [exact X|apply (SPL _ (Z.min s (w - 1))); [|lia|exact SH]|lia|].
      * unfold inr in *. lia.
      * intros k K. cbn [ibin]. replace (Z.min s (w - 1) <? w) with true by lia. split; [reflexivity|apply trunc_inr; lia].
    + lia.
    + intros k K. cbn beta. pose proof (Ln_inr w a k ltac:(lia)) as I. pose proof (sgn_range w _ ltac:(lia) I) as R.
      rewrite Z.shiftr_div_pow2 by lia. destruct (Z.ltb_spec s w).
      * rewrite HF. change U with trunc. rewrite S_small by exact I. replace (Z.min s (w - 1)) with s by lia. reflexivity.
      * replace (Z.min s (w - 1)) with (w - 1) by lia. rewrite S_small by exact I. unfold mask_if, ones.
        pose proof (pow2_pos (w - 1) ltac:(lia)). destruct (Z.ltb_spec (sgn w (Ln w a k)) 0).
        -- replace (sgn w (Ln w a k) / 2 ^ (w - 1)) with (-1) by (apply (Z.div_unique_pos _ _ _ (sgn w (Ln w a k) + 2 ^ (w - 1))); lia).
           apply trunc_m1. lia.
        -- rewrite Z.div_small by lia. reflexivity.
Qed.

(** Sum of absolute differences. *)
Lemma pv_add : forall vs w a b x y, pv c vs a (V (TInt w) x) -> pv c vs b (V (TInt w) y) -> pv c vs (eAdd a b) (V (TInt w) (trunc w (x + y))).
Proof.
  intros vs w a b x y A B. eapply pv_2; [exact A|exact B|]. cbn [sem2]. unfold bin_sem, same2. cbn [ty_of]. rewrite ty_eqb_refl. reflexivity.
Qed.
Lemma pv_reduce : forall vs e f, pvec c vs e 8 (TInt 16) f -> (forall k, 0 <= k < 8 -> f k < 256) ->
  pv c vs (eReduce8 e) (V (TInt 16) (f 0 + (f 1 + (f 2 + (f 3 + (f 4 + (f 5 + (f 6 + f 7)))))))).
Proof.
  intros vs e f E B.
  assert (R : forall k, 0 <= k < 8 -> 0 <= f k < 256). { intros k K. pose proof (proj2 E k K) as I. unfold inr in I. specialize (B k K). lia. }
  assert (X : forall k, 0 <= k < 8 -> pv c vs (E1 (OExtract k) e) (V (TInt 16) (f k))). { intros k K. eapply pv_extract; [exact E|tl|exact K]. }
  assert (ST : forall acc z k, pv c vs acc (V (TInt 16) z) -> 0 <= k < 8 -> 0 <= z < 2048 -> pv c vs (eAdd acc (E1 (OExtract k) e)) (V (TInt 16) (z + f k))).
  { intros acc z k A K Zr. pose proof (pv_add vs 16 _ _ _ _ A (X k K)) as P. specialize (R k K). rewrite trunc_id in P by (change (2 ^ 16) with 65536; lia). exact P. }
  pose proof (R 0 ltac:(lia)). pose proof (R 1 ltac:(lia)). pose proof (R 2 ltac:(lia)). pose proof (R 3 ltac:(lia)).
  pose proof (R 4 ltac:(lia)). pose proof (R 5 ltac:(lia)). pose proof (R 6 ltac:(lia)). pose proof (R 7 ltac:(lia)).
  unfold eReduce8. cbn [fold_left].
  replace (f 0 + (f 1 + (f 2 + (f 3 + (f 4 + (f 5 + (f 6 + f 7))))))) with (f 0 + f 1 + f 2 + f 3 + f 4 + f 5 + f 6 + f 7) by ring.
  repeat (apply ST; [|lia|lia]). apply X. lia.
Qed.
Definition sad_exp : dexp :=
  let zero := eNull (TV 16 8) in
  let diff := eSub v1 v2 in
  let diff := eSel (eCmp UGT v2 v1) (eVNeg 16 8 diff) diff in
  let low := eReduce8 (eCast CZExt (TV 8 16) (eShuf [0; 1; 2; 3; 4; 5; 6; 7] diff zero)) in
  let high := eReduce8 (eCast CZExt (TV 8 16) (eShuf [8; 9; 10; 11; 12; 13; 14; 15] diff zero)) in
  E2 (OInsert 4) (E2 (OInsert 0) (eNull (TV 8 16)) low) high.
Lemma sad8_range : forall a b j, 0 <= sad8 a b j < 2048.
Proof.
  intros a b j. unfold sad8. cbn [fold_right].
  assert (R : forall k, 0 <= Z.abs (Ln 8 a k - Ln 8 b k) < 256).
  { intros k. pose proof (Ln_inr 8 a k ltac:(lia)). pose proof (Ln_inr 8 b k ltac:(lia)). unfold inr in *. change (2 ^ 8) with 256 in *. lia. }
  pose proof (R (j + 0)). pose proof (R (j + 1)). pose proof (R (j + 2)). pose proof (R (j + 3)).
  pose proof (R (j + 4)). pose proof (R (j + 5)). pose proof (R (j + 6)). pose proof (R (j + 7)). lia.
Qed.
Lemma f_sad : forall a b,
  vres (TV 16 8) (TV 16 8) a b sad_exp 8 (TInt 16) (fun k => if k =? 4 then sad8 a b 8 else if k =? 0 then sad8 a b 0 else 0).
Proof.
  intros a b vs E1 E2. unfold TV in E1, E2. unfold sad_exp, eVNeg. cbn zeta.
  set (diff := eSel (eCmp UGT v2 v1) (eSub (eNull (TV 16 8)) (eSub v1 v2)) (eSub v1 v2)).
  set (d := fun k => Z.abs (Ln 8 a k - Ln 8 b k)).
  assert (DR : forall k, 0 <= d k < 256).
  { intros k. unfold d. pose proof (Ln_inr 8 a k ltac:(lia)). pose proof (Ln_inr 8 b k ltac:(lia)). unfold inr in *. change (2 ^ 8) with 256 in *. lia. }
  assert (D : pvec c vs diff 16 (TInt 8) d).
  { eapply pvec_ext; [unfold diff; pv1|lia|]. intros k K. cbn beta. cbn [icmp_sem tsize]. pose proof (DR k). unfold d in *.
    pose proof (Ln_inr 8 a k ltac:(lia)). pose proof (Ln_inr 8 b k ltac:(lia)). unfold inr in *. change (2 ^ 8) with 256 in *.
    rewrite trunc_sub_r by lia. destruct (Z.ltb_spec (Ln 8 a k) (Ln 8 b k)); rewrite trunc_id; change (2 ^ 8) with 256; lia. }
  assert (H8 : forall j m, m = map (fun k => j + k) (zseq 8) -> 0 <= j <= 8 ->
     pv c vs (eReduce8 (eCast CZExt (TV 8 16) (eShuf m diff (eNull (TV 16 8))))) (V (TInt 16) (sad8 a b j))).
  { intros j m -> J.
    replace (sad8 a b j) with (d (j + 0) + (d (j + 1) + (d (j + 2) + (d (j + 3) + (d (j + 4) + (d (j + 5) + (d (j + 6) + d (j + 7))))))))
      by (unfold sad8, d; cbn [fold_right]; ring).
    eapply pv_reduce with (f := fun k => d (j + k)).
    - apply pvec_zext with (w := 8); [|lia]. eapply pvec_ext; [apply (pvec_shufm c vs 8 (fun k => j + k) _ _ 16 (TInt 8) d (fun _ => 0) D)|lia|].
      + apply pvec_null. tl.
      + tl.
      + lia.
      + intros k K. lia.
      + intros k K. cbn beta. replace (j + k <? 16) with true by lia. reflexivity.
    - intros k K. specialize (DR (j + k)). lia. }
  assert (IR : forall j, inr 16 (sad8 a b j)). { intros j. pose proof (sad8_range a b j). unfold inr. change (2 ^ 16) with 65536. lia. }
  eapply pvec_ext.
  - eapply pvec_insert; [eapply pvec_insert; [apply pvec_null; tl|apply (H8 0); [reflexivity|lia]|tl|apply IR|lia]|apply (H8 8); [reflexivity|lia]|tl|apply IR|lia].
  - lia.
  - reflexivity.
Qed.
Lemma f_sad_vec : forall a b, vec 16 (fun k => if k =? 4 then sad8 a b 8 else if k =? 0 then sad8 a b 0 else 0) 8 = sad8 a b 0 + sad8 a b 8 * 2 ^ 64.
Proof.
  intros. generalize (sad8 a b 0) (sad8 a b 8). intros x y. cbn [vec Z.of_nat Pos.of_succ_nat Pos.succ Z.eqb Pos.eqb].
  rewrite Z.mul_0_r, Z.pow_0_r. change (16 * 4) with 64. lia.
Qed.
End Fam.
