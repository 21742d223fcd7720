(** Proof infrastructure for the RV64 lifter: relation between the model's
    register-map state and the guest state of Rv64Spec.v, and evaluation lemmas
    for the builder expressions. *)

From Coq Require Import ZArith Lia ZifyBool List Bool.
From Verif Require Import Bits IR Facet Dsl Rv64 Rv64Spec.
Import ListNotations.
Open Scope Z_scope.
Ltac Zify.zify_post_hook ::= Z.div_mod_to_equations.

(** The lifted code's state holds the guest state; x0's slot is unconstrained. *)
Record rel (s : st) (g : gst) : Prop := Rel {
  rel_x : forall n, n <> 0 -> s_reg s (GP n) = Some (g_x g n);
  rel_xr : forall n, n <> 0 -> inr 64 (g_x g n);
  rel_f : forall n, s_reg s (VEC n) = Some (g_f g n);
  rel_fr : forall n, inr 64 (g_f g n);
  rel_m : forall x, s_mem s x = g_mem g x;
}.
(** The PC the lifted code would store is the guest PC. *)
Definition pc_at (c : cenv) (s : st) (g : gst) : Prop :=
  pc_value c (s_pc s) 0 = Ok (V (TInt 64) (g_pc g)).

(** What the lifter believes to be constant is so. *)
Definition kc_sound (kc : areg -> konst) (s : st) : Prop :=
  forall r z, kc r = KInt z -> s_reg s r = Some (trunc 64 z).
(** With a global base, host and guest addresses coincide. *)
Definition gbase_ok (c : cenv) : Prop :=
  match c_gbase c with Some b => trunc 64 b = trunc 64 (c_gbase_addr c) | None => True end.

Lemma rx_inr : forall s g n, rel s g -> inr 64 (rx g n).
Proof.
  intros s g n R. unfold rx. destruct (n =? 0) eqn:E.
  - split; [lia|reflexivity].
  - apply (rel_xr _ _ R). lia.
Qed.

Lemma U_trunc : forall w z, U w z = trunc w z. Proof. reflexivity. Qed.
Lemma S_sgn : forall w z, S_ w z = sgn w (trunc w z). Proof. reflexivity. Qed.

Lemma inr0 : forall w, 0 <= w -> inr w 0.
Proof. intros. split; [lia|apply pow2_pos; assumption]. Qed.

(** ** PC arithmetic *)
Lemma addr_pc_base_inr : forall c a, inr 64 (addr_pc_base c a).
Proof. intros. unfold addr_pc_base. destruct (c_pcbase c); apply trunc_range; lia. Qed.

Lemma addr_pc_base_add : forall c a d, addr_pc_base c (a + d) = trunc 64 (addr_pc_base c a + d).
Proof.
  intros. unfold addr_pc_base. destruct (c_pcbase c) as [b|].
  - rewrite trunc_add_r, trunc_add_l by lia.
    replace (b + trunc 64 (a - c_pcbase_addr c) + d) with (trunc 64 (a - c_pcbase_addr c) + (b + d)) by lia.
    rewrite trunc_add_l by lia. f_equal. lia.
  - rewrite trunc_add_l by lia. reflexivity.
Qed.
Lemma addr_pc_base_trunc : forall c a, addr_pc_base c (trunc 64 a) = addr_pc_base c a.
Proof.
  intros. unfold addr_pc_base. destruct (c_pcbase c) as [b|].
  - rewrite trunc_sub_l by lia. reflexivity.
  - rewrite trunc_trunc by lia. reflexivity.
Qed.

(** ** Memory *)
Lemma rd_mem_ext : forall n m m' a, (forall x, m x = m' x) -> rd_mem m a n = rd_mem m' a n.
Proof. induction n; intros; cbn [rd_mem]; [reflexivity|]. rewrite (IHn m m' a H), H. reflexivity. Qed.

Lemma load_bytes_snoc : forall n m a,
  load_bytes m a (S n) = load_bytes m a n + (m (wrap64 (a + Z.of_nat n)) mod 256) * 256 ^ Z.of_nat n.
Proof.
  induction n; intros.
  - cbn [load_bytes]. change (Z.of_nat 0) with 0. rewrite (Z.add_0_r a), Z.pow_0_r. lia.
  - change (load_bytes m a (S (S n))) with (m (wrap64 a) mod 256 + 256 * load_bytes m (a + 1) (S n)).
    rewrite IHn. cbn [load_bytes].
    replace (a + 1 + Z.of_nat n) with (a + Z.of_nat (S n)) by lia.
    assert (P : 256 ^ Z.of_nat (S n) = 256 * 256 ^ Z.of_nat n).
    { replace (Z.of_nat (S n)) with (1 + Z.of_nat n) by lia. rewrite Z.pow_add_r by lia. reflexivity. }
    rewrite P. ring.
Qed.
Lemma load_rd : forall n m a, load_bytes m a n = rd_mem m a n.
Proof.
  induction n; intros; [reflexivity|]. rewrite load_bytes_snoc, IHn. reflexivity.
Qed.
Lemma load_bytes_wrap : forall n m a, load_bytes m (trunc 64 a) n = load_bytes m a n.
Proof.
  intros. rewrite !load_rd. induction n; [reflexivity|]. cbn [rd_mem]. rewrite IHn.
  do 4 f_equal. change U with trunc. apply trunc_add_l. lia.
Qed.

Lemma store_wr_big : forall n m a v x, (n <= 512)%nat ->
  store_bytes m a n v x = wr_mem m a n v x.
Proof.
  intros n. induction n; intros m a v x Hn.
  - unfold wr_mem. cbn [store_bytes]. rewrite U_trunc.
    pose proof (trunc_range 64 (x - a) ltac:(lia)) as [H _].
    destruct (trunc 64 (x - a) <? Z.of_nat 0) eqn:E; [exfalso; lia|reflexivity].
  - cbn [store_bytes]. rewrite IHn by lia. unfold wr_mem. change U with trunc.
    pose proof (trunc_range 64 (x - a) ltac:(lia)) as H1.
    pose proof (trunc_range 64 (x - (a + 1)) ltac:(lia)) as H2.
    destruct ((0 <=? x) && (x <? 2^64)) eqn:R.
    + apply andb_prop in R. destruct R as [R1 R2]. rewrite R1, R2, !andb_true_r.
      apply Z.leb_le in R1. apply Z.ltb_lt in R2.
      destruct (x =? wrap64 a) eqn:E.
      * apply Z.eqb_eq in E.
        assert (K1 : trunc 64 (x - a) = 0).
        { rewrite E. unfold wrap64. fold (trunc 64 a). rewrite trunc_sub_l by lia. rewrite Z.sub_diag. reflexivity. }
        assert (K2 : trunc 64 (x - (a + 1)) = 2^64 - 1).
        { rewrite E. unfold wrap64. fold (trunc 64 a). rewrite trunc_sub_l by lia.
          replace (a - (a + 1)) with (-1) by lia. reflexivity. }
        rewrite K1, K2. change (2^64 - 1) with 18446744073709551615.
        destruct (18446744073709551615 <? Z.of_nat n) eqn:E1; [exfalso; lia|].
        destruct (0 <? Z.of_nat (S n)) eqn:E2; [|exfalso; lia].
        rewrite Z.pow_0_r, Z.div_1_r. reflexivity.
      * apply Z.eqb_neq in E.
        assert (K : trunc 64 (x - (a + 1)) = trunc 64 (x - a) - 1).
        { assert (N : trunc 64 (x - a) <> 0).
          { intro Q. apply E. unfold wrap64. fold (trunc 64 a).
            assert (trunc 64 (trunc 64 (x - a) + a) = x).
            { rewrite trunc_add_l by lia. replace (x - a + a) with x by lia. apply trunc_small. split; assumption. }
            rewrite Q in H. rewrite Z.add_0_l in H. congruence. }
          replace (x - (a + 1)) with ((x - a) - 1) by lia. rewrite <- trunc_sub_l by lia.
          apply trunc_small. unfold inr in *. lia. }
        rewrite K.
        destruct (trunc 64 (x - a) - 1 <? Z.of_nat n) eqn:E1, (trunc 64 (x - a) <? Z.of_nat (S n)) eqn:E2; try (exfalso; lia); try reflexivity.
        -- unfold inr in H1, H2. rewrite K in H2.
           replace (trunc 64 (x - a)) with (1 + (trunc 64 (x - a) - 1)) at 2 by lia.
           rewrite Z.pow_add_r by lia. rewrite Z.pow_1_r.
           rewrite Z.div_div by (try apply Z.pow_nonzero; try apply Z.pow_pos_nonneg; lia). reflexivity.
    + rewrite <- !andb_assoc, R, !andb_false_r.
      destruct (x =? wrap64 a) eqn:E; [|reflexivity]. apply Z.eqb_eq in E. exfalso.
      assert (0 <= x < 2^64). { rewrite E. unfold wrap64. apply Z.mod_pos_bound. reflexivity. }
      destruct (0 <=? x) eqn:A, (x <? 2^64) eqn:B; simpl in R; lia.
Qed.
Lemma store_wr : forall n m a v x, (n <= 64)%nat -> store_bytes m a n v x = wr_mem m a n v x.
Proof. intros. apply store_wr_big. lia. Qed.
Lemma wr_mem_ext : forall n m m' a v v' x, (forall y, m y = m' y) ->
  (forall k, 0 <= k < Z.of_nat n -> (v / 256^k) mod 256 = (v' / 256^k) mod 256) ->
  wr_mem m a n v x = wr_mem m' a n v' x.
Proof.
  intros n m m' a v v' x H K. unfold wr_mem. rewrite H. rewrite U_trunc.
  pose proof (trunc_range 64 (x - a) ltac:(lia)) as [H1 _].
  destruct (trunc 64 (x - a) <? Z.of_nat n) eqn:E; [|reflexivity]. rewrite K by lia. reflexivity.
Qed.
Lemma byte_trunc : forall w v k, 0 <= k -> 8 * (k + 1) <= w ->
  (trunc w v / 256^k) mod 256 = (v / 256^k) mod 256.
Proof.
  intros. change 256 with (2^8) at 1 2 3 4. rewrite <- !Z.pow_mul_r by lia.
  rewrite <- !Z.shiftr_div_pow2 by lia.
  change (trunc 8 (Z.shiftr (trunc w v) (8*k)) = trunc 8 (Z.shiftr v (8*k))).
  apply bits_eq with (w := 8); try lia; try (apply trunc_range; lia).
  intros j Hj. rewrite !testbit_trunc by lia. rewrite !Z.shiftr_spec by lia. rewrite testbit_trunc by lia.
  destruct (j <? 8) eqn:E; [|lia]. destruct (j + 8 * k <? w) eqn:E2; [reflexivity|exfalso; lia].
Qed.

(** ** Evaluation of expressions *)
Section Ev.
Context `{FpuOps}.
Variable c : cenv.

Definition val (s : st) (e : dexp) (w z : Z) : Prop := ev c s e = Ok (V (TInt w) z).

Lemma val_cI : forall s w z, val s (cI w z) w (trunc w z).
Proof. reflexivity. Qed.
Lemma val_bin : forall s op a b w x y z, val s a w x -> val s b w y ->
  ibin op w x y = IV z -> val s (eBin op a b) w z.
Proof.
  unfold val, ev. intros s op a b w x y z A B I. cbn [eval eBin]. unfold eBin. cbn [eval].
  rewrite A, B. cbn [bind sem2]. unfold bin_sem, same2. cbn [ty_of]. rewrite ty_eqb_refl.
  cbn [int_shape]. rewrite I. reflexivity.
Qed.
Lemma val_cmp : forall s p a b w x y, val s a w x -> val s b w y ->
  val s (eCmp p a b) 1 (b2z (icmp_sem p w x y)).
Proof.
  unfold val, ev. intros s p a b w x y A B. unfold eCmp. cbn [eval].
  rewrite A, B. cbn [bind sem2]. unfold cmp_sem, same2. cbn [ty_of]. rewrite ty_eqb_refl. reflexivity.
Qed.
Lemma val_sel : forall s k a b w z x y, val s k 1 z -> val s a w x -> val s b w y ->
  val s (eSel k a b) w (if z =? 0 then y else x).
Proof.
  unfold val, ev. intros s k a b w z x y K A B. unfold eSel. cbn [eval]. rewrite K, A, B.
  cbn [bind sem3]. unfold sel_sem. cbn [ty_of]. rewrite ty_eqb_refl. destruct (z =? 0); reflexivity.
Qed.
Lemma val_if : forall s k a b w z v, val s k 1 z ->
  (z = 0 -> val s b w v) -> (z <> 0 -> val s a w v) -> val s (EIf k a b) w v.
Proof.
  unfold val, ev. intros s k a b w z v K B A. cbn [eval]. rewrite K. cbn [bind].
  destruct (z =? 0) eqn:E; [apply B|apply A]; lia.
Qed.
Lemma val_cast : forall s o a w w' x f, val s a w x ->
  cast_fun o (TInt w) (TInt w') = Some f -> val s (E1 (OCast o (TInt w')) a) w' (f x).
Proof.
  unfold val, ev. intros s o a w w' x f A F. cbn [eval]. rewrite A. cbn [bind sem1]. unfold cast_sem.
  cbn [ty_of]. rewrite F. reflexivity.
Qed.
Lemma val_zext : forall s a w w' x, val s a w x -> w <= w' -> val s (eZExt w' a) w' x.
Proof.
  intros. unfold eZExt. apply (val_cast _ _ _ _ _ _ (fun z => z) H0).
  unfold cast_fun. destruct (ty_eqb (TInt w) (TInt w')); [reflexivity|]. cbn [icast].
  destruct (w <=? w') eqn:E; [reflexivity|exfalso; lia].
Qed.
Lemma val_sext : forall s a w w' x, val s a w x -> 0 < w <= w' -> inr w x ->
  val s (eSExt w' a) w' (sext w w' x).
Proof.
  intros s a w w' x A L I. unfold eSExt. unfold val, ev in *. cbn [eval]. rewrite A. cbn [bind sem1].
  unfold cast_sem, cast_fun. cbn [ty_of ty_eqb]. destruct (w =? w') eqn:E.
  - apply Z.eqb_eq in E. subst. rewrite sext_same by (assumption || lia). reflexivity.
  - cbn [icast]. destruct (w <=? w') eqn:E2; [reflexivity|exfalso; lia].
Qed.
Lemma val_trunc : forall s a w w' x, val s a w x -> 0 <= w' <= w -> inr w x ->
  val s (eTrunc w' a) w' (trunc w' x).
Proof.
  intros s a w w' x A L I. unfold eTrunc. unfold val, ev in *. cbn [eval]. rewrite A. cbn [bind sem1].
  unfold cast_sem, cast_fun. cbn [ty_of ty_eqb]. destruct (w =? w') eqn:E.
  - apply Z.eqb_eq in E. subst. rewrite trunc_small by assumption. reflexivity.
  - cbn [icast]. destruct (w' <=? w) eqn:E2; [reflexivity|exfalso; lia].
Qed.
Lemma val_intr1 : forall s i a w x z, val s a w x -> intr1_sem i w x = IV z ->
  val s (E1 (OIntr1 i) a) w z.
Proof.
  unfold val, ev. intros s i a w x z A I. cbn [eval]. rewrite A. cbn [bind sem1 intr1_rv int_shape].
  rewrite I. reflexivity.
Qed.
Lemma val_intr2 : forall s i a b w x y, val s a w x -> val s b w y ->
  val s (E2 (OIntr2 i) a b) w (intr2_sem i w x y).
Proof.
  unfold val, ev. intros s i a b w x y A B. cbn [eval]. rewrite A, B. cbn [bind sem2].
  unfold intr2_rv, same2. cbn [ty_of]. rewrite ty_eqb_refl. reflexivity.
Qed.
Lemma val_fsh : forall s l a b k w x y z, val s a w x -> val s b w y -> val s k w z ->
  val s (E3 (OFsh l) a b k) w (fsh_sem l w x y z).
Proof.
  unfold val, ev. intros s l a b k w x y z A B C. cbn [eval]. rewrite A, B, C. cbn [bind sem3].
  unfold fsh_rv. cbn [ty_of]. rewrite !ty_eqb_refl. reflexivity.
Qed.
Lemma val_pc : forall s a off, s_pc s = PcConst a -> val s (ELeaf (DPc off)) 64 (addr_pc_base c (a + off)).
Proof. unfold val, ev. intros s a off P. cbn [eval leaf_val]. rewrite P. reflexivity. Qed.
Lemma val_var : forall s x w z, s_var s x = Some (V (TInt w) z) -> val s (vX x) w z.
Proof. unfold val, ev, vX. intros s x w z E. cbn [eval leaf_val]. rewrite E. reflexivity. Qed.

Lemma val_LoadGp : forall s g n f, rel s g -> In f [I8; I16; I32; I64] ->
  val s (LoadGp n f) (facet_size f) (trunc (facet_size f) (rx g n)).
Proof.
  intros s g n f R Hf. unfold val, ev, LoadGp, rx. destruct (n =? 0) eqn:E.
  - simpl in Hf. destruct Hf as [<-|[<-|[<-|[<-|[]]]]]; reflexivity.
  - unfold rG. cbn [eval leaf_val]. rewrite (rel_x _ _ R) by lia.
    simpl in Hf. destruct Hf as [<-|[<-|[<-|[<-|[]]]]]; reflexivity.
Qed.
Lemma val_LoadGp64 : forall s g n, rel s g -> val s (LoadGp n I64) 64 (rx g n).
Proof.
  intros s g n R. pose proof (val_LoadGp s g n I64 R) as L. simpl in L.
  rewrite trunc_small in L by (apply (rx_inr s g n R)). apply L. auto.
Qed.
Lemma val_LoadGp32 : forall s g n, rel s g -> val s (LoadGp n I32) 32 (trunc 32 (rx g n)).
Proof. intros s g n R. apply (val_LoadGp s g n I32 R). simpl. auto. Qed.
Lemma ev_LoadPtr : forall s g n, rel s g -> ev c s (LoadGp n PTR) = Ok (V TPtr (rx g n)).
Proof.
  intros s g n R. unfold ev, LoadGp, rx. destruct (n =? 0) eqn:E; [reflexivity|].
  unfold rG. cbn [eval leaf_val]. rewrite (rel_x _ _ R) by lia. cbn [get_facet facet_type facet_type_opt facet_size].
  rewrite trunc_small; [reflexivity|]. apply (rel_xr _ _ R). lia.
Qed.
Lemma ev_LoadFp : forall s g n f, rel s g -> f = F32 \/ f = F64 ->
  ev c s (LoadFp n f) = Ok (V (facet_type f) (trunc (facet_size f) (g_f g n))).
Proof.
  intros s g n f R [-> | ->]; unfold ev, LoadFp, rG; cbn [eval leaf_val]; rewrite (rel_f _ _ R); reflexivity.
Qed.
Lemma val_LoadFpI : forall s g n f, rel s g -> f = I32 \/ f = I64 ->
  val s (LoadFp n f) (facet_size f) (trunc (facet_size f) (g_f g n)).
Proof.
  intros s g n f R [-> | ->]; unfold val, ev, LoadFp, rG; cbn [eval leaf_val]; rewrite (rel_f _ _ R); reflexivity.
Qed.

(** lifter.cc:66-80 Addr computes rs1+imm mod 2^64. *)
Lemma ev_AddrConst : forall s a, gbase_ok c -> ev c s (AddrConst c a) = Ok (V TPtr (trunc 64 a)).
Proof.
  intros s a G. unfold AddrConst, gbase_ok in *. destruct (trunc 64 a =? 0) eqn:Z0.
  - apply Z.eqb_eq in Z0. rewrite Z0. reflexivity.
  - destruct (c_gbase c) as [b|].
    + unfold ev. cbn [eval cI bind sem2]. unfold cI. cbn [eval bind sem2 gep_sem tsize].
      rewrite G. do 2 f_equal. rewrite trunc_add_l, trunc_add_r by lia. f_equal. lia.
    + reflexivity.
Qed.
Lemma ev_Addr : forall kc s g i, rel s g -> kc_sound kc s -> gbase_ok c ->
  ev c s (Addr c kc i) = Ok (V TPtr (trunc 64 (rx g (r_rs1 i) + r_imm i))).
Proof.
  intros kc s g i R K G. unfold Addr.
  destruct (r_rs1 i =? 0) eqn:E0.
  - rewrite ev_AddrConst by assumption. unfold rx. rewrite E0. reflexivity.
  - destruct (kc (GP (r_rs1 i))) as [|z|] eqn:KC.
    + destruct (r_imm i =? 0) eqn:EI.
      * rewrite (ev_LoadPtr s g) by assumption. apply Z.eqb_eq in EI. rewrite EI, Z.add_0_r.
        rewrite trunc_small; [reflexivity|apply (rx_inr s g _ R)].
      * unfold ev. cbn [eval]. fold (ev c s (LoadGp (r_rs1 i) PTR)). rewrite (ev_LoadPtr s g) by assumption.
        unfold cI. cbn [eval bind sem2 gep_sem tsize]. rewrite trunc_add_r by lia. reflexivity.
    + rewrite ev_AddrConst by assumption. apply K in KC. unfold rx. rewrite E0.
      rewrite (rel_x _ _ R) in KC by lia. injection KC as ->. rewrite trunc_add_l by lia. reflexivity.
    + pose proof (val_bin s Add _ _ 64 _ _ _ (val_LoadGp64 s g (r_rs1 i) R) (val_cI s 64 (r_imm i)) eq_refl) as B.
      unfold val in B. unfold ev in *. cbn [eval]. unfold eAdd. rewrite B. cbn [bind sem1].
      unfold cast_sem. cbn [ty_of]. cbn [cast_fun ty_eqb]. rewrite trunc_add_r by lia. reflexivity.
Qed.

(** ** Effects *)
Lemma rel_with_pc : forall s g p, rel s g -> rel (with_pc s p) g.
Proof. intros s g p [A B C D E]. split; assumption. Qed.
Lemma rel_with_var : forall s g v, rel s g -> rel (with_var s v) g.
Proof. intros s g v [A B C D E]. split; assumption. Qed.
Lemma rel_wpc : forall s g a, rel s g -> rel s (wpc g a).
Proof. intros s g a [A B C D E]. split; assumption. Qed.

Hypothesis HA : c_arch c = RV64.

(** The state after StoreGp of a value. *)
Definition gp_written (s : st) (rd : Z) (w z : Z) : st :=
  if rd =? 0 then with_var s (upd_var (s_var s) 63 (V (TInt w) z))
  else with_reg s (upd_reg (s_reg s) (GP rd) (Some (sext w 64 z))).
Lemma run_StoreGp : forall s rd e w z, val s e w z -> 0 < w <= 64 -> inr w z ->
  run c s (StoreGp rd e) = Ok (gp_written s rd w z).
Proof.
  intros s rd e w z E L I. unfold StoreGp, gp_written. destruct (rd =? 0).
  - cbn [run run1]. unfold val in E. rewrite E. reflexivity.
  - cbn [run run1]. pose proof (val_sext s e w 64 z E L I) as X. unfold val in X. rewrite X. cbn [bind].
    unfold native_size, native_facet. cbn [set_cell facet_size]. rewrite trunc_small; [reflexivity|].
    unfold sext. apply trunc_range. lia.
Qed.
Lemma rel_gp_written : forall s g rd w z v, rel s g ->
  sext w 64 z = U 64 v -> rel (gp_written s rd w z) (wx g rd v).
Proof.
  intros s g rd w z v R E. unfold gp_written, wx. destruct (rd =? 0) eqn:E0.
  - apply rel_with_var. assumption.
  - destruct R as [A B C D M]. split; cbn [g_x g_f g_mem with_reg s_reg s_mem].
    + intros n Hn. unfold upd_reg. cbn [areg_eqb]. rewrite (Z.eqb_sym n rd).
      destruct (rd =? n); [rewrite E; reflexivity|apply A; assumption].
    + intros n Hn. destruct (n =? rd); [apply trunc_range; lia|apply B; assumption].
    + intros n. unfold upd_reg. cbn [areg_eqb]. apply C.
    + assumption.
    + assumption.
Qed.
Lemma gp_written_x0 : forall s rd w z, s_reg (gp_written s rd w z) (GP 0) = s_reg s (GP 0).
Proof.
  intros. unfold gp_written. destruct (rd =? 0) eqn:E; [reflexivity|].
  cbn [with_reg s_reg]. unfold upd_reg. cbn [areg_eqb]. rewrite E. reflexivity.
Qed.
Lemma gp_written_pc : forall s rd w z, s_pc (gp_written s rd w z) = s_pc s.
Proof. intros. unfold gp_written. destruct (rd =? 0); reflexivity. Qed.
Lemma gp_written_ret : forall s rd w z, s_ret (gp_written s rd w z) = s_ret s.
Proof. intros. unfold gp_written. destruct (rd =? 0); reflexivity. Qed.
Lemma gp_written_mem : forall s rd w z, s_mem (gp_written s rd w z) = s_mem s.
Proof. intros. unfold gp_written. destruct (rd =? 0); reflexivity. Qed.
End Ev.
