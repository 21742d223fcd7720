(** Lane-wise evaluation of vector expressions: the values of the IR's vector
    operations in terms of [vec] of X86SseSpec.v. *)

From Coq Require Import ZArith Lia ZifyBool List Bool.
From Verif Require Import Bits IR Facet Dsl Rv64 Rv64Spec Rv64Sim X86 X86Spec X86Sse X86SseSpec.
Import ListNotations.
Open Scope Z_scope.
Ltac Zify.zify_post_hook ::= Z.div_mod_to_equations.

(** ** Numbers *)
Lemma zseq_S : forall n, 0 <= n -> zseq (n + 1) = zseq n ++ [n].
Proof.
  intros n N. unfold zseq. replace (Z.to_nat (n + 1)) with (S (Z.to_nat n)) by lia.
  rewrite seq_S, map_app. cbn [map]. do 2 f_equal. lia.
Qed.
Lemma zseq_In : forall n k, In k (zseq n) <-> 0 <= k < n.
Proof.
  intros n k. unfold zseq. rewrite in_map_iff. split.
  - intros (j & <- & J). apply in_seq in J. lia.
  - intros K. exists (Z.to_nat k). split; [lia|]. apply in_seq. lia.
Qed.
Lemma zseq_len : forall n, length (zseq n) = Z.to_nat n.
Proof. intros. unfold zseq. rewrite map_length, seq_length. reflexivity. Qed.
Lemma lanes_from_seq : forall n w z i, lanes_from w z (Z.of_nat i) n = map (fun k => lane w z (Z.of_nat k)) (seq i n).
Proof.
  induction n; intros; cbn [lanes_from seq map]; [reflexivity|]. f_equal. rewrite <- IHn. f_equal. lia.
Qed.
Lemma lanes_zseq : forall n w z, lanes n w z = map (lane w z) (zseq n).
Proof. intros. unfold lanes, zseq. rewrite map_map. exact (lanes_from_seq (Z.to_nat n) w z 0). Qed.
Lemma unlanes_snoc : forall w l x, 0 <= w -> unlanes w (l ++ [x]) = unlanes w l + x * 2 ^ (w * Z.of_nat (length l)).
Proof.
  intros w l x W. induction l as [|y l IH]; cbn [app unlanes length].
  - change (Z.of_nat 0) with 0. rewrite !Z.mul_0_r, Z.pow_0_r. lia.
  - rewrite IH, Nat2Z.inj_succ. replace (w * Z.succ (Z.of_nat (length l))) with (w + w * Z.of_nat (length l)) by lia.
    rewrite Z.pow_add_r by nia. ring.
Qed.
Lemma unlanes_vec : forall w f n, 0 <= w -> unlanes w (map f (zseq n)) = vec w f (Z.to_nat n).
Proof.
  intros w f n W. unfold zseq. induction (Z.to_nat n) as [|k IH]; [reflexivity|].
  rewrite seq_S, !map_app, Nat.add_0_l. cbn [map]. rewrite unlanes_snoc, IH by assumption. cbn [vec].
  rewrite !map_length, seq_length. reflexivity.
Qed.
Lemma vec_ext : forall w f g n, (forall k, 0 <= k < Z.of_nat n -> f k = g k) -> vec w f n = vec w g n.
Proof.
  intros w f g n. induction n as [|n IH]; intros E; [reflexivity|]. cbn [vec]. rewrite IH, E by (intros; try apply E; lia). reflexivity.
Qed.
Lemma lane_Ln : forall w z k, 0 <= w -> 0 <= k -> lane w z k = Ln w z k.
Proof. intros. unfold lane, Ln, trunc. rewrite Z.shiftr_div_pow2 by nia. reflexivity. Qed.
Lemma Ln_inr : forall w z k, 0 <= w -> inr w (Ln w z k).
Proof. intros. unfold Ln. apply Z.mod_pos_bound. lia. Qed.
Lemma vec_inr : forall w f n, 0 <= w -> (forall k, 0 <= k < Z.of_nat n -> inr w (f k)) -> inr (w * Z.of_nat n) (vec w f n).
Proof.
  intros w f n W F. induction n as [|n IH].
  - cbn [vec]. change (Z.of_nat 0) with 0. rewrite Z.mul_0_r. unfold inr. cbn. lia.
  - cbn [vec]. specialize (IH ltac:(intros; apply F; lia)). specialize (F (Z.of_nat n) ltac:(lia)). rewrite Nat2Z.inj_succ.
    replace (w * Z.succ (Z.of_nat n)) with (w * Z.of_nat n + w) by lia. unfold inr in *. rewrite Z.pow_add_r by nia. nia.
Qed.
Lemma Ln_vec : forall w f n k, 0 <= w -> (forall k, 0 <= k < Z.of_nat n -> inr w (f k)) -> 0 <= k < Z.of_nat n ->
  Ln w (vec w f n) k = f k.
Proof.
  intros w f n k W F. induction n as [|n IH]; intros K; [lia|]. cbn [vec].
  assert (I : inr (w * Z.of_nat n) (vec w f n)) by (apply vec_inr; [assumption|intros; apply F; lia]).
  unfold Ln. destruct (Z.eq_dec k (Z.of_nat n)) as [->|N].
  - rewrite Z.div_add by (apply Z.pow_nonzero; nia). rewrite Z.div_small by (exact I). apply Z.mod_small. apply F. lia.
  - rewrite <- IH at 1 by (try lia; intros; apply F; lia). unfold Ln.
    replace (w * Z.of_nat n) with (w * k + (w + w * (Z.of_nat n - 1 - k))) by lia.
    rewrite !Z.pow_add_r by nia. rewrite (Z.mul_comm (2 ^ (w * k))), Z.mul_assoc, Z.div_add by (apply Z.pow_nonzero; nia).
    rewrite (Z.mul_comm (2 ^ w)), Z.mul_assoc, Z_mod_plus_full. reflexivity.
Qed.
Lemma lane_vec : forall w f n k, 0 <= w -> (forall k, 0 <= k < Z.of_nat n -> inr w (f k)) -> 0 <= k < Z.of_nat n ->
  lane w (vec w f n) k = f k.
Proof. intros. rewrite lane_Ln by lia. apply Ln_vec; assumption. Qed.
(** A number is the vector of its lanes. *)
Lemma vec_Ln : forall w z n, 0 <= w -> vec w (Ln w z) n = z mod 2 ^ (w * Z.of_nat n).
Proof.
  intros w z n W. induction n as [|n IH].
  - cbn [vec]. change (Z.of_nat 0) with 0. rewrite Z.mul_0_r, Z.pow_0_r, Z.mod_1_r. reflexivity.
  - cbn [vec]. rewrite IH, Nat2Z.inj_succ. replace (w * Z.succ (Z.of_nat n)) with (w * Z.of_nat n + w) by lia.
    rewrite Z.pow_add_r by nia. rewrite Z.rem_mul_r by (try apply Z.pow_nonzero; try apply Z.pow_pos_nonneg; nia). unfold Ln. ring.
Qed.
Lemma vec_Ln' : forall w z n W, 0 <= w -> 0 <= n -> w * n = W -> vec w (Ln w z) (Z.to_nat n) = trunc W z.
Proof. intros w z n W P N <-. rewrite vec_Ln by lia. unfold trunc. do 3 f_equal. lia. Qed.
(** Two 128-bit numbers with equal lanes. *)
Lemma vec_is : forall w f n z, 0 <= w -> (forall k, 0 <= k < Z.of_nat n -> f k = Ln w z k) -> inr (w * Z.of_nat n) z ->
  vec w f n = z.
Proof.
  intros w f n z W F I. rewrite (vec_ext w f (Ln w z) n F), vec_Ln by assumption. apply Z.mod_small. exact I.
Qed.
Lemma lanes_vec : forall w f n, 0 <= w -> (forall k, 0 <= k < n -> inr w (f k)) -> lanes n w (vec w f (Z.to_nat n)) = map f (zseq n).
Proof.
  intros w f n W F. rewrite lanes_zseq. apply map_ext_in. intros k K. apply zseq_In in K. apply lane_vec; [assumption| |lia].
  intros j J. apply F. lia.
Qed.
Lemma seq_ires_map : forall (A : Type) (f : A -> ires) (h : A -> Z) l, (forall k, In k l -> f k = IV (h k)) ->
  seq_ires (map f l) = Ok (Some (map h l)).
Proof.
  intros A f h l. induction l as [|x l IH]; intros E; [reflexivity|]. cbn [map seq_ires].
  rewrite (E x) by (left; reflexivity). rewrite IH by (intros; apply E; right; assumption). reflexivity.
Qed.
Lemma map2_map : forall (A B C D : Type) (F : B -> C -> D) (f : A -> B) (g : A -> C) l,
  map2 F (map f l) (map g l) = map (fun k => F (f k) (g k)) l.
Proof. intros. unfold map2. induction l as [|x l IH]; [reflexivity|]. cbn [map combine fst snd]. rewrite IH. reflexivity. Qed.
Lemma combine_map : forall (A B C : Type) (f : A -> B) (g : A -> C) l, combine (map f l) (map g l) = map (fun k => (f k, g k)) l.
Proof. intros. induction l as [|x l IH]; [reflexivity|]. cbn [map combine]. rewrite IH. reflexivity. Qed.

Lemma vec1_ok : forall n w w' t F f h, 0 <= w -> 0 <= w' -> (forall k, 0 <= k < n -> inr w (f k)) ->
  (forall k, 0 <= k < n -> F (f k) = IV (h k)) ->
  vec1 n w w' t F (vec w f (Z.to_nat n)) = Ok (V t (vec w' h (Z.to_nat n))).
Proof.
  intros n w w' t F f h W W' I E. unfold vec1. rewrite lanes_vec, map_map by assumption.
  rewrite (seq_ires_map _ _ h). { cbn [of_lanes]. rewrite unlanes_vec by assumption. reflexivity. }
  intros k K. apply E. apply zseq_In. exact K.
Qed.
Lemma vec2_ok : forall n w w' t F f g h, 0 <= w -> 0 <= w' -> (forall k, 0 <= k < n -> inr w (f k)) -> (forall k, 0 <= k < n -> inr w (g k)) ->
  (forall k, 0 <= k < n -> F (f k) (g k) = IV (h k)) ->
  vec2 n w w' t F (vec w f (Z.to_nat n)) (vec w g (Z.to_nat n)) = Ok (V t (vec w' h (Z.to_nat n))).
Proof.
  intros n w w' t F f g h W W' I J E. unfold vec2. rewrite !lanes_vec, map2_map by assumption.
  rewrite (seq_ires_map _ _ h). { cbn [of_lanes]. rewrite unlanes_vec by assumption. reflexivity. }
  intros k K. apply E. apply zseq_In. exact K.
Qed.
Lemma vec3_ok : forall n w w' t F f g g' h, 0 <= w -> 0 <= w' -> (forall k, 0 <= k < n -> inr w (f k)) ->
  (forall k, 0 <= k < n -> inr w (g k)) -> (forall k, 0 <= k < n -> inr w (g' k)) ->
  (forall k, 0 <= k < n -> F (f k) (g k) (g' k) = IV (h k)) ->
  vec3 n w w' t F (vec w f (Z.to_nat n)) (vec w g (Z.to_nat n)) (vec w g' (Z.to_nat n)) = Ok (V t (vec w' h (Z.to_nat n))).
Proof.
  intros n w w' t F f g g' h W W' I J J' E. unfold vec3. rewrite !lanes_vec, combine_map, map2_map by assumption. cbn [fst snd].
  rewrite (seq_ires_map _ _ h). { cbn [of_lanes]. rewrite unlanes_vec by assumption. reflexivity. }
  intros k K. apply E. apply zseq_In. exact K.
Qed.
(** [n] copies. *)
Lemma unlanes_repeat : forall w z n, 0 <= w -> unlanes w (repeat z n) = vec w (fun _ => z) n.
Proof.
  intros w z n W. rewrite <- (Nat2Z.id n) at 2. rewrite <- unlanes_vec by assumption. f_equal.
  unfold zseq. rewrite Nat2Z.id, map_map. generalize 0%nat as i. induction n as [|n IH]; intros i; [reflexivity|].
  cbn [repeat seq map]. f_equal. apply IH.
Qed.
Lemma upd_nth_map : forall (f : Z -> Z) i x (l : nat) j, (i < l)%nat ->
  upd_nth i x (map f (map Z.of_nat (seq j l))) = map (fun k => if k =? Z.of_nat (j + i) then x else f k) (map Z.of_nat (seq j l)).
Proof.
  intros f i x l. revert i. induction l as [|l IH]; intros i j I; [lia|]. destruct i; cbn [seq map upd_nth].
  - rewrite Nat.add_0_r, Z.eqb_refl. f_equal. rewrite !map_map. apply map_ext_in. intros k K. apply in_seq in K.
    destruct (Z.eqb_spec (Z.of_nat k) (Z.of_nat j)); [lia|reflexivity].
  - destruct (Z.eqb_spec (Z.of_nat j) (Z.of_nat (j + S i))); [lia|]. f_equal. rewrite IH by lia.
    replace (S j + i)%nat with (j + S i)%nat by lia. reflexivity.
Qed.
Lemma nth_map_list : forall (F : Z -> Z) (l : list Z), map F l = map (fun k => F (nth (Z.to_nat k) l 0)) (zseq (Z.of_nat (length l))).
Proof.
  intros F l. induction l as [|x l IH] using rev_ind; [reflexivity|].
  rewrite app_length, Nat2Z.inj_add. cbn [length]. change (Z.of_nat 1) with 1. rewrite zseq_S by lia. rewrite !map_app. cbn [map].
  f_equal.
  - rewrite IH. apply map_ext_in. intros k K. apply zseq_In in K. rewrite app_nth1 by lia. reflexivity.
  - f_equal. rewrite Nat2Z.id, app_nth2, Nat.sub_diag by lia. reflexivity.
Qed.

(** ** Expressions over temporaries *)
Section Eval.
Context `{FpuOps}.
Variable c : cenv.
Variable vs : nat -> option rv.

(** [e] has value [v] whenever the temporaries are [vs]. *)
Definition pv (e : dexp) (v : rv) : Prop := forall s, s_var s = vs -> ev c s e = Ok v.
(** [e] is a vector of [n] elements of type [t], given by [f]. *)
Definition pvec (e : dexp) (n : Z) (t : ty) (f : Z -> Z) : Prop :=
  pv e (V (TVec n t) (vec (tsize t) f (Z.to_nat n))) /\ (forall k, 0 <= k < n -> inr (tsize t) (f k)).

Lemma pv_var : forall x v, vs x = Some v -> pv (vX x) v.
Proof. intros x v E s S. unfold ev, vX. cbn [eval leaf_val]. rewrite S, E. reflexivity. Qed.
Lemma pv_const : forall t z, pv (EConst t z) (V t (trunc (tsize t) z)).
Proof. intros t z s S. reflexivity. Qed.
Lemma pv_1 : forall o a x v, pv a x -> sem1 o x = Ok v -> pv (E1 o a) v.
Proof. intros o a x v A E s S. specialize (A s S). unfold ev in *. cbn [eval]. rewrite A. cbn [bind]. exact E. Qed.
Lemma pv_2 : forall o a b x y v, pv a x -> pv b y -> sem2 o x y = Ok v -> pv (E2 o a b) v.
Proof. intros o a b x y v A B E s S. specialize (A s S). specialize (B s S). unfold ev in *. cbn [eval]. rewrite A, B. cbn [bind]. exact E. Qed.
Lemma pv_3 : forall o a b d x y z v, pv a x -> pv b y -> pv d z -> sem3 o x y z = Ok v -> pv (E3 o a b d) v.
Proof.
  intros o a b d x y z v A B D E s S. specialize (A s S). specialize (B s S). specialize (D s S). unfold ev in *. cbn [eval].
  rewrite A, B, D. cbn [bind]. exact E.
Qed.
Lemma pvec_ext : forall e n t f g, pvec e n t f -> 0 <= n -> (forall k, 0 <= k < n -> f k = g k) -> pvec e n t g.
Proof.
  intros e n t f g [E I] N X. split.
  - rewrite <- (vec_ext (tsize t) f g) by (intros; apply X; lia). exact E.
  - intros k K. rewrite <- X by assumption. apply I. assumption.
Qed.
Lemma pvec_var : forall x n t z, vs x = Some (V (TVec n t) (trunc (tsize t * n) z)) -> 0 <= tsize t -> 0 <= n -> pvec (vX x) n t (Ln (tsize t) z).
Proof.
  intros x n t z E T N. split.
  - rewrite (vec_Ln' _ z n (tsize t * n)) by auto. apply pv_var. exact E.
  - intros. apply Ln_inr. assumption.
Qed.
Lemma vec0 : forall w n, vec w (fun _ => 0) n = 0.
Proof. intros. induction n as [|n IH]; [reflexivity|]. cbn [vec]. rewrite IH. reflexivity. Qed.
Lemma pvec_null : forall n t, 0 <= tsize t -> pvec (eNull (TVec n t)) n t (fun _ => 0).
Proof.
  intros n t T. split.
  - rewrite vec0. unfold eNull. replace 0 with (trunc (tsize (TVec n t)) 0) at 2 by (unfold trunc; apply Zmod_0_l). apply pv_const.
  - intros. unfold inr. split; [lia|]. apply Z.pow_pos_nonneg; lia.
Qed.
Lemma pvec_splat : forall n w z, 0 <= w -> 0 <= n -> pvec (eSplat n w z) n (TInt w) (fun _ => trunc w z).
Proof.
  intros n w z W N. split; [|intros; apply trunc_range; assumption].
  eapply pv_1; [apply pv_const|]. cbn [sem1 splat_sem tsize]. rewrite unlanes_repeat by assumption. reflexivity.
Qed.
Lemma pvec_splatv : forall n w a z, pv a (V (TInt w) z) -> 0 <= w -> inr w z -> pvec (E1 (OSplat n) a) n (TInt w) (fun _ => z).
Proof.
  intros n w a z A W I. split; [|intros; exact I]. eapply pv_1; [exact A|]. cbn [sem1 splat_sem tsize].
  rewrite unlanes_repeat by assumption. reflexivity.
Qed.
Lemma trunc_inr : forall w z, 0 <= w -> inr w (trunc w z).
Proof. intros. apply trunc_range. assumption. Qed.

Lemma pvec_bin : forall op a b n w f g h, pvec a n (TInt w) f -> pvec b n (TInt w) g -> 0 <= w ->
  (forall k, 0 <= k < n -> ibin op w (f k) (g k) = IV (h k) /\ inr w (h k)) -> pvec (eBin op a b) n (TInt w) h.
Proof.
  intros op a b n w f g h [A I] [B J] W X. split; [|intros; apply X; assumption].
  eapply pv_2; [exact A|exact B|]. cbn [sem2]. unfold bin_sem, same2. cbn [ty_of]. rewrite ty_eqb_refl. cbn [int_shape tsize].
  apply vec2_ok; try assumption. intros k K. apply X. exact K.
Qed.
Lemma pvec_add : forall a b n w f g, pvec a n (TInt w) f -> pvec b n (TInt w) g -> 0 <= w -> pvec (eAdd a b) n (TInt w) (fun k => trunc w (f k + g k)).
Proof. intros. eapply pvec_bin; eauto. intros. split; [reflexivity|apply trunc_inr; assumption]. Qed.
Lemma pvec_sub : forall a b n w f g, pvec a n (TInt w) f -> pvec b n (TInt w) g -> 0 <= w -> pvec (eSub a b) n (TInt w) (fun k => trunc w (f k - g k)).
Proof. intros. eapply pvec_bin; eauto. intros. split; [reflexivity|apply trunc_inr; assumption]. Qed.
Lemma pvec_mul : forall a b n w f g, pvec a n (TInt w) f -> pvec b n (TInt w) g -> 0 <= w -> pvec (eMul a b) n (TInt w) (fun k => trunc w (f k * g k)).
Proof. intros. eapply pvec_bin; eauto. intros. split; [reflexivity|apply trunc_inr; assumption]. Qed.
Lemma pvec_lshr : forall a b n w f g, pvec a n (TInt w) f -> pvec b n (TInt w) g -> 0 <= w -> (forall k, 0 <= k < n -> g k < w) ->
  pvec (eLShr a b) n (TInt w) (fun k => f k / 2 ^ g k).
Proof.
  intros a b n w f g A B W L. eapply pvec_bin; eauto. intros k K. destruct A as [_ I], B as [_ J]. specialize (I k K). specialize (J k K). specialize (L k K).
  cbn [ibin]. replace (g k <? w) with true by lia. split.
  - rewrite Z.shiftr_div_pow2; [reflexivity|]. unfold inr in J. cbn [tsize] in J. lia.
  - unfold inr in *. cbn [tsize] in *. assert (0 < 2 ^ g k) by (apply Z.pow_pos_nonneg; lia). split; [apply Z.div_pos; lia|].
    apply Z.div_lt_upper_bound; nia.
Qed.
Lemma pvec_cmp : forall p a b n w f g, pvec a n (TInt w) f -> pvec b n (TInt w) g -> 0 <= w ->
  pvec (eCmp p a b) n (TInt 1) (fun k => b2z (icmp_sem p w (f k) (g k))).
Proof.
  intros p a b n w f g [A I] [B J] W. split; [|intros; cbn [tsize]; apply inr_b2z; lia].
  eapply pv_2; [exact A|exact B|]. cbn [sem2]. unfold cmp_sem, same2. cbn [ty_of]. rewrite ty_eqb_refl. cbn [tsize].
  apply vec2_ok; try assumption; try lia. reflexivity.
Qed.
Lemma pvec_sel : forall k a b n t q f g, pvec k n (TInt 1) (fun j => b2z (q j)) -> pvec a n t f -> pvec b n t g -> 1 <= tsize t ->
  pvec (eSel k a b) n t (fun j => if q j then f j else g j).
Proof.
  intros k a b n t q f g [K KI] [A I] [B J] T. split; [|intros j Hj; destruct (q j); auto].
  eapply pv_3; [exact K|exact A|exact B|]. cbn [sem3]. unfold sel_sem. cbn [ty_of]. rewrite ty_eqb_refl, Z.eqb_refl. cbn [tsize].
  rewrite lanes_vec by (try lia; exact KI). rewrite unlanes_vec by lia.
  apply vec3_ok; try assumption; try lia.
  - intros j Hj. specialize (KI j Hj). unfold inr in *. cbn [tsize] in KI. split; [lia|]. apply Z.lt_le_trans with (2 ^ 1); [lia|].
    apply Z.pow_le_mono_r; lia.
  - intros j Hj. destruct (q j); reflexivity.
Qed.
(** Scalar condition. *)
Lemma pvec_sel1 : forall k a b n t q f g, pv k (V (TInt 1) (b2z q)) -> pvec a n t f -> pvec b n t g ->
  pvec (eSel k a b) n t (fun j => if q then f j else g j).
Proof.
  intros k a b n t q f g K [A I] [B J]. split; [|intros j Hj; destruct q; auto].
  eapply pv_3; [exact K|exact A|exact B|]. cbn [sem3]. unfold sel_sem. cbn [ty_of]. rewrite ty_eqb_refl. destruct q; reflexivity.
Qed.
Lemma pvec_cast : forall cs a n w w' F f, pvec a n (TInt w) f -> icast cs w w' = Some F -> cs <> CBitCast -> w <> w' -> 0 <= w -> 0 <= w' ->
  (forall k, 0 <= k < n -> inr w' (F (f k))) -> pvec (eCast cs (TV n w') a) n (TInt w') (fun k => F (f k)).
Proof.
  intros cs a n w w' F f [A I] E NB NE W W' J. split; [|intros; apply J; assumption].
  eapply pv_1; [exact A|]. cbn [sem1]. unfold cast_sem, cast_fun, TV. cbn [ty_of].
  replace (ty_eqb (TVec n (TInt w)) (TVec n (TInt w'))) with false
    by (cbn [ty_eqb]; symmetry; rewrite andb_false_iff; right; lia).
  destruct cs; try discriminate E; try congruence; rewrite Z.eqb_refl, E; do 2 f_equal; cbn [tsize];
    rewrite lanes_vec, map_map, unlanes_vec by assumption; reflexivity.
Qed.
Lemma sext_inr : forall w w' z, 0 <= w' -> inr w' (sext w w' z).
Proof. intros. unfold sext. apply trunc_inr. assumption. Qed.
Lemma pvec_sext : forall a n w w' f, pvec a n (TInt w) f -> 0 <= w < w' -> pvec (eCast CSExt (TV n w') a) n (TInt w') (fun k => sext w w' (f k)).
Proof.
  intros a n w w' f A W. eapply pvec_cast; [exact A| |discriminate|lia|lia|lia|].
  - cbn [icast]. replace (w <=? w') with true by lia. reflexivity.
  - intros. apply sext_inr. lia.
Qed.
Lemma pvec_zext : forall a n w w' f, pvec a n (TInt w) f -> 0 <= w < w' -> pvec (eCast CZExt (TV n w') a) n (TInt w') f.
Proof.
  intros a n w w' f A W. eapply (pvec_cast CZExt a n w w' (fun z => z)); [exact A| |discriminate|lia|lia|lia|].
  - cbn [icast]. replace (w <=? w') with true by lia. reflexivity.
  - intros k K. destruct A as [_ I]. specialize (I k K). unfold inr in *. cbn [tsize] in I. split; [lia|].
    apply Z.lt_le_trans with (2 ^ w); [lia|]. apply Z.pow_le_mono_r; lia.
Qed.
Lemma pvec_trunc : forall a n w w' f, pvec a n (TInt w) f -> 0 <= w' < w -> pvec (eCast CTrunc (TV n w') a) n (TInt w') (fun k => trunc w' (f k)).
Proof.
  intros a n w w' f A W. eapply pvec_cast; [exact A| |discriminate|lia|lia|lia|].
  - cbn [icast]. replace (w' <=? w) with true by lia. reflexivity.
  - intros. apply trunc_inr. lia.
Qed.
Definition pick (m : list Z) (n : Z) (f g : Z -> Z) (k : Z) : Z :=
  let i := nth (Z.to_nat k) m 0 in if i <? n then f i else g (i - n).
Lemma pvec_shuf : forall m a b n t f g, pvec a n t f -> pvec b n t g -> 0 <= tsize t ->
  forallb (fun i => (0 <=? i) && (i <? 2 * n)) m = true ->
  pvec (eShuf m a b) (Z.of_nat (length m)) t (pick m n f g).
Proof.
  intros m a b n t f g [A I] [B J] T M.
  assert (MI : forall i, In i m -> 0 <= i < 2 * n).
  { intros i Hi. rewrite forallb_forall in M. specialize (M i Hi). lia. }
  assert (P : forall k, 0 <= k < Z.of_nat (length m) -> inr (tsize t) (pick m n f g k)).
  { intros k K. unfold pick. pose proof (MI (nth (Z.to_nat k) m 0) ltac:(apply nth_In; lia)).
    destruct (Z.ltb_spec (nth (Z.to_nat k) m 0) n); [apply I|apply J]; lia. }
  split; [|exact P].
  eapply pv_2; [exact A|exact B|]. cbn [sem2]. unfold shuf_sem. cbn [ty_of]. rewrite ty_eqb_refl.
  replace (forallb (fun i => (-1 <=? i) && (i <? 2 * n)) m) with true.
  2:{ symmetry. apply forallb_forall. intros i Hi. specialize (MI i Hi). lia. }
  cbn [andb].
  replace (existsb (fun i => i =? -1) m) with false.
  2:{ symmetry. apply not_true_is_false. intros E. apply existsb_exists in E. destruct E as (i & Hi & E). specialize (MI i Hi). lia. }
  do 2 f_equal. rewrite nth_map_list. rewrite unlanes_vec by assumption. apply vec_ext. intros k K. rewrite Z2Nat.id in K by lia.
  unfold pick. pose proof (MI (nth (Z.to_nat k) m 0) ltac:(apply nth_In; lia)).
  destruct (Z.ltb_spec (nth (Z.to_nat k) m 0) n); apply lane_vec; try lia; intros; try apply I; try apply J; lia.
Qed.
(** Undefined second operand that is not selected. *)
Lemma pvec_shufu : forall m a n t f, pvec a n t f -> 0 <= tsize t ->
  forallb (fun i => (0 <=? i) && (i <? n)) m = true ->
  pvec (eShuf m a (EUndef (TVec n t))) (Z.of_nat (length m)) t (fun k => f (nth (Z.to_nat k) m 0)).
Proof.
  intros m a n t f [A I] T M.
  assert (MI : forall i, In i m -> 0 <= i < n).
  { intros i Hi. rewrite forallb_forall in M. specialize (M i Hi). lia. }
  split.
  2:{ intros k K. apply I. apply MI. apply nth_In. lia. }
  eapply pv_2; [exact A|intros s S; reflexivity|]. cbn [sem2]. unfold shuf_sem. cbn [ty_of]. rewrite ty_eqb_refl.
  replace (forallb (fun i => (-1 <=? i) && (i <? 2 * n)) m) with true.
  2:{ symmetry. apply forallb_forall. intros i Hi. specialize (MI i Hi). lia. }
  cbn [andb].
  replace (existsb (fun i => i =? -1) m) with false.
  2:{ symmetry. apply not_true_is_false. intros E. apply existsb_exists in E. destruct E as (i & Hi & E). specialize (MI i Hi). lia. }
  replace (existsb (fun i => n <=? i) m) with false.
  2:{ symmetry. apply not_true_is_false. intros E. apply existsb_exists in E. destruct E as (i & Hi & E). specialize (MI i Hi). lia. }
  do 2 f_equal. rewrite nth_map_list. rewrite unlanes_vec by assumption. apply vec_ext. intros k K. rewrite Z2Nat.id in K by lia.
  apply lane_vec; try lia; intros; try apply I; try lia. specialize (MI (nth (Z.to_nat k) m 0) ltac:(apply nth_In; lia)). lia.
Qed.
Lemma pvec_insert : forall i a b n t f x, pvec a n t f -> pv b (V t x) -> 0 <= tsize t -> inr (tsize t) x -> 0 <= i < n ->
  pvec (E2 (OInsert i) a b) n t (fun k => if k =? i then x else f k).
Proof.
  intros i a b n t f x [A I] B T X N. split; [|intros k K; destruct (k =? i); auto].
  eapply pv_2; [exact A|exact B|]. cbn [sem2]. unfold insert_sem. cbn [ty_of]. rewrite ty_eqb_refl.
  replace (true && (0 <=? i) && (i <? n)) with true by lia. do 2 f_equal.
  rewrite lanes_vec by assumption. unfold zseq. rewrite upd_nth_map by lia. rewrite Nat.add_0_l, Z2Nat.id by lia.
  exact (unlanes_vec (tsize t) (fun k => if k =? i then x else f k) n T).
Qed.
Lemma pv_extract : forall i a n t f, pvec a n t f -> 0 <= tsize t -> 0 <= i < n -> pv (E1 (OExtract i) a) (V t (f i)).
Proof.
  intros i a n t f [A I] T N. eapply pv_1; [exact A|]. cbn [sem1]. unfold extract_sem. cbn [ty_of].
  replace ((0 <=? i) && (i <? n)) with true by lia. do 2 f_equal. apply lane_vec; [assumption| |lia]. intros. apply I. lia.
Qed.
(** Bit operations on whole vectors. *)
Lemma pvec_fp2 : forall f a b n t t' g1 g2 h, pvec a n t g1 -> pvec b n t g2 -> is_fp t = true -> 0 <= tsize t -> 0 <= tsize t' ->
  (forall k, 0 <= k < n -> fires f t t' [g1 k; g2 k] = IV (h k)) ->
  pvec (E2 (OFp2 f (TVec n t')) a b) n t' h.
Proof.
  intros f a b n t t' g1 g2 h [A I] [B J] FP T T' X. split.
  - eapply pv_2; [exact A|exact B|]. cbn [sem2]. unfold fp2_sem. cbn [ty_of elt]. rewrite ty_eqb_refl, Z.eqb_refl, FP. cbn [andb].
    apply vec2_ok; assumption.
  - intros k K. specialize (X k K). unfold fires in X. destruct (fpu_op _ _ _ _); [|discriminate]. injection X as <-. apply trunc_inr. assumption.
Qed.
Lemma pvec_fp1 : forall f a n t t' g1 h, pvec a n t g1 -> 0 <= tsize t -> 0 <= tsize t' ->
  (forall k, 0 <= k < n -> fires f t t' [g1 k] = IV (h k)) ->
  pvec (E1 (OFp1 f (TVec n t')) a) n t' h.
Proof.
  intros f a n t t' g1 h [A I] T T' X. split.
  - eapply pv_1; [exact A|]. cbn [sem1]. unfold fp1_sem. cbn [ty_of elt]. rewrite Z.eqb_refl.
    apply vec1_ok; assumption.
  - intros k K. specialize (X k K). unfold fires in X. destruct (fpu_op _ _ _ _); [|discriminate]. injection X as <-. apply trunc_inr. assumption.
Qed.
End Eval.
