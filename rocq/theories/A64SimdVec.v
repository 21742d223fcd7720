(** Lane-wise evaluation of the SIMD lifter's expressions, for vectors and scalars alike,
    and the execution of its register reads and writes. *)

From Coq Require Import ZArith Lia ZifyBool List Bool.
From Verif Require Import Bits IR Facet Dsl Rv64Spec Rv64Sim Rv64Arith X86Spec X86Arith X86Sse X86SseSpec X86SseVec.
From Verif Require Import A64Base A64Simd A64 A64Spec A64Arith A64Sim A64Dp A64Mem A64Sys A64SimdSpec.
Import ListNotations.
Open Scope Z_scope.
Ltac Zify.zify_post_hook ::= Z.div_mod_to_equations.

(** A scalar or a vector of [n] elements. *)
Inductive shp := Sc | Vc (n : Z).
Definition scnt (h : shp) : Z := match h with Sc => 1 | Vc n => n end.
Definition sty (h : shp) (t : ty) : ty := match h with Sc => t | Vc n => TVec n t end.

Section Eval.
Context `{FpuOps}.
Variable c : cenv.
Variable vs : nat -> option rv.
Notation pv := (pv c vs).
Notation pvec := (pvec c vs).

Definition psh (e : dexp) (h : shp) (t : ty) (f : Z -> Z) : Prop :=
  match h with
  | Sc => pv e (V t (f 0)) /\ inr (tsize t) (f 0)
  | Vc n => pvec e n t f
  end.
Lemma psh_vec : forall e n t f, pvec e n t f -> psh e (Vc n) t f.
Proof. intros. assumption. Qed.
Lemma psh_inr : forall e h t f k, psh e h t f -> 0 <= k < scnt h -> inr (tsize t) (f k).
Proof. intros e [|n] t f k P K; cbn [psh scnt] in *; [replace k with 0 by lia; apply P|apply P; exact K]. Qed.
Lemma psh_ext : forall e h t f f', psh e h t f -> 0 <= scnt h -> (forall k, 0 <= k < scnt h -> f k = f' k) -> psh e h t f'.
Proof.
  intros e [|n] t f f' P N E; cbn [psh scnt] in *.
  - rewrite <- (E 0) by lia. exact P.
  - eapply pvec_ext; eassumption.
Qed.
(** The value of the expression as a number. *)
Lemma psh_pv : forall e h t f, psh e h t f -> 0 <= tsize t -> pv e (V (sty h t) (vec (tsize t) f (Z.to_nat (scnt h)))).
Proof.
  intros e [|n] t f P T; cbn [psh sty scnt] in *.
  - change (Z.to_nat 1) with 1%nat. cbn [vec]. change (Z.of_nat 0) with 0. rewrite Z.mul_0_r, Z.pow_0_r, Z.mul_1_r, Z.add_0_l. apply P.
  - apply P.
Qed.
Lemma Ln0 : forall w z, Ln w z 0 = trunc w z.
Proof. intros. unfold Ln. rewrite Z.mul_0_r, Z.pow_0_r, Z.div_1_r. reflexivity. Qed.
Lemma psh_var : forall x h t z, vs x = Some (V (sty h t) (trunc (tsize t * scnt h) z)) -> 0 <= tsize t -> 0 <= scnt h -> psh (vX x) h t (Ln (tsize t) z).
Proof.
  intros x [|n] t z E T N; cbn [psh scnt sty] in *.
  - rewrite Ln0. split; [apply pv_var; rewrite Z.mul_1_r in E; exact E|apply trunc_inr; assumption].
  - apply pvec_var; assumption.
Qed.
Lemma psh_null : forall h t, 0 <= tsize t -> psh (eNull (sty h t)) h t (fun _ => 0).
Proof.
  intros [|n] t T; cbn [psh sty].
  - split; [|unfold inr; split; [lia|apply Z.pow_pos_nonneg; lia]]. unfold eNull. replace 0 with (trunc (tsize t) 0) at 2 by (unfold trunc; apply Zmod_0_l). apply pv_const.
  - apply pvec_null. assumption.
Qed.
Lemma pvec_ones' : forall n w, 0 < w -> 0 <= n -> pvec (EConst (TVec n (TInt w)) (-1)) n (TInt w) (fun _ => 2 ^ w - 1).
Proof.
  intros n w W N. pose proof (pow2_pos w ltac:(lia)) as PP. split; [|intros; unfold inr; cbn [tsize]; lia].
  cbn [tsize]. replace (vec w (fun _ => 2 ^ w - 1) (Z.to_nat n)) with (trunc (tsize (TVec n (TInt w))) (-1)); [apply pv_const|].
  cbn [tsize]. assert (Q : forall k, trunc (Z.of_nat k * w) (-1) = vec w (fun _ => 2 ^ w - 1) k).
  { induction k as [|k IH].
    - cbn [vec]. unfold trunc. rewrite Z.mul_0_l, Z.pow_0_r, Z.mod_1_r. reflexivity.
    - cbn [vec]. rewrite <- IH. unfold trunc. rewrite Nat2Z.inj_succ.
      replace (Z.succ (Z.of_nat k) * w) with (Z.of_nat k * w + w) by lia. rewrite Z.pow_add_r by lia.
      pose proof (pow2_pos (Z.of_nat k * w) ltac:(lia)) as PK. rewrite (Z.mul_comm w).
      rewrite <- (Z.mod_unique_pos (-1) (2 ^ (Z.of_nat k * w) * 2 ^ w) (-1) (2 ^ (Z.of_nat k * w) * 2 ^ w - 1)) by nia.
      rewrite <- (Z.mod_unique_pos (-1) (2 ^ (Z.of_nat k * w)) (-1) (2 ^ (Z.of_nat k * w) - 1)) by nia. ring. }
  specialize (Q (Z.to_nat n)). rewrite Z2Nat.id in Q by lia. exact Q.
Qed.
Lemma psh_ones : forall h w, 0 < w -> 0 <= scnt h -> psh (EConst (sty h (TInt w)) (-1)) h (TInt w) (fun _ => 2 ^ w - 1).
Proof.
  intros [|n] w W N; cbn [psh sty scnt] in *.
  - pose proof (pow2_pos w ltac:(lia)). split; [|cbn [tsize]; unfold inr; lia].
    replace (2 ^ w - 1) with (trunc (tsize (TInt w)) (-1)); [apply pv_const|]. cbn [tsize]. unfold trunc. symmetry. apply (Z.mod_unique_pos _ _ (-1)); lia.
  - apply pvec_ones'; assumption.
Qed.
(** A constant in every lane, as the code builds it. *)
Definition eCst (h : shp) (w z : Z) : dexp := match h with Sc => cI w z | Vc n => eSplat n w z end.
Lemma psh_cst : forall h w z, 0 <= w -> 0 <= scnt h -> psh (eCst h w z) h (TInt w) (fun _ => trunc w z).
Proof.
  intros [|n] w z W N; cbn [psh scnt eCst] in *.
  - split; [apply pv_const|apply trunc_inr; exact W].
  - apply pvec_splat; assumption.
Qed.
Lemma psh_bin : forall op a b h w f g r, psh a h (TInt w) f -> psh b h (TInt w) g -> 0 <= w ->
  (forall k, 0 <= k < scnt h -> inr w (f k) -> inr w (g k) -> ibin op w (f k) (g k) = IV (r k) /\ inr w (r k)) -> psh (eBin op a b) h (TInt w) r.
Proof.
  intros op a b [|n] w f g r A B W X; cbn [psh scnt] in *.
  - destruct A as [A I], B as [B J]. destruct (X 0 ltac:(lia) I J) as [E R]. split; [|exact R].
    eapply pv_2; [exact A|exact B|]. cbn [sem2]. unfold bin_sem, same2. cbn [ty_of]. rewrite ty_eqb_refl. cbn [int_shape]. rewrite E. reflexivity.
  - eapply pvec_bin; eauto. intros k K. apply X; [exact K|apply A; exact K|apply B; exact K].
Qed.
Lemma psh_add : forall a b h w f g, psh a h (TInt w) f -> psh b h (TInt w) g -> 0 <= w -> psh (eAdd a b) h (TInt w) (fun k => trunc w (f k + g k)).
Proof. intros. eapply psh_bin; eauto. intros. split; [reflexivity|apply trunc_inr; assumption]. Qed.
Lemma psh_sub : forall a b h w f g, psh a h (TInt w) f -> psh b h (TInt w) g -> 0 <= w -> psh (eSub a b) h (TInt w) (fun k => trunc w (f k - g k)).
Proof. intros. eapply psh_bin; eauto. intros. split; [reflexivity|apply trunc_inr; assumption]. Qed.
Lemma psh_mul : forall a b h w f g, psh a h (TInt w) f -> psh b h (TInt w) g -> 0 <= w -> psh (eMul a b) h (TInt w) (fun k => trunc w (f k * g k)).
Proof. intros. eapply psh_bin; eauto. intros. split; [reflexivity|apply trunc_inr; assumption]. Qed.
Lemma psh_neg : forall a h w f, psh a h (TInt w) f -> 0 <= w -> psh (eNegT (sty h (TInt w)) a) h (TInt w) (fun k => trunc w (- f k)).
Proof. intros a h w f A W. exact (psh_sub _ _ _ _ _ _ (psh_null h (TInt w) W) A W). Qed.
Lemma hi_bit : forall w a j, inr w a -> w <= j -> 0 <= w -> Z.testbit a j = false.
Proof. intros w a j A L W. rewrite <- (Z.mod_small a (2 ^ w)) by exact A. apply Z.mod_pow2_bits_high. lia. Qed.
Lemma inr_op : forall (F : Z -> Z -> Z) (B : bool -> bool -> bool) w a b,
  (forall a b j, 0 <= j -> Z.testbit (F a b) j = B (Z.testbit a j) (Z.testbit b j)) -> B false false = false -> 0 <= w ->
  inr w a -> inr w b -> 0 <= F a b -> inr w (F a b).
Proof.
  intros F B w a b T B0 W A C P. split; [exact P|]. apply Z.nle_gt. intro L.
  assert (E : F a b = F a b mod 2 ^ w).
  { apply Z.bits_inj'. intros j J. rewrite Z.testbit_mod_pow2 by lia. destruct (Z.ltb_spec j w); [reflexivity|].
    rewrite T by lia. rewrite (hi_bit w a j), (hi_bit w b j) by assumption. exact B0. }
  pose proof (Z.mod_pos_bound (F a b) (2 ^ w) (pow2_pos w W)). lia.
Qed.
Lemma inr_and : forall w a b, 0 <= w -> inr w a -> inr w b -> inr w (Z.land a b).
Proof. intros w a b W A B. apply (inr_op Z.land andb); auto. - intros. apply Z.land_spec. - apply Z.land_nonneg. left. apply A. Qed.
Lemma inr_or : forall w a b, 0 <= w -> inr w a -> inr w b -> inr w (Z.lor a b).
Proof. intros w a b W A B. apply (inr_op Z.lor orb); auto. - intros. apply Z.lor_spec. - apply Z.lor_nonneg. split; [apply A|apply B]. Qed.
Lemma inr_xor : forall w a b, 0 <= w -> inr w a -> inr w b -> inr w (Z.lxor a b).
Proof. intros w a b W A B. apply (inr_op Z.lxor xorb); auto. - intros. apply Z.lxor_spec. - apply Z.lxor_nonneg. split; intros; [apply B|apply A]. Qed.
Lemma psh_and : forall a b h w f g, psh a h (TInt w) f -> psh b h (TInt w) g -> 0 <= w -> psh (eAnd a b) h (TInt w) (fun k => Z.land (f k) (g k)).
Proof. intros. eapply psh_bin; eauto. intros. split; [reflexivity|apply inr_and; assumption]. Qed.
Lemma psh_or : forall a b h w f g, psh a h (TInt w) f -> psh b h (TInt w) g -> 0 <= w -> psh (eOr a b) h (TInt w) (fun k => Z.lor (f k) (g k)).
Proof. intros. eapply psh_bin; eauto. intros. split; [reflexivity|apply inr_or; assumption]. Qed.
Lemma psh_xor : forall a b h w f g, psh a h (TInt w) f -> psh b h (TInt w) g -> 0 <= w -> psh (eXor a b) h (TInt w) (fun k => Z.lxor (f k) (g k)).
Proof. intros. eapply psh_bin; eauto. intros. split; [reflexivity|apply inr_xor; assumption]. Qed.
Lemma xor_ones : forall w z, 0 < w -> inr w z -> Z.lxor z (2 ^ w - 1) = knot w z.
Proof.
  intros w z W I. pose proof (knot_ok w z) as K. unfold trunc in K. rewrite <- K by (assumption || lia). f_equal.
  apply (Z.mod_unique_pos _ _ (-1)); pose proof (pow2_pos w ltac:(lia)); lia.
Qed.
Lemma knot_inr : forall w z, inr w z -> inr w (knot w z).
Proof. intros w z I. unfold knot, inr in *. lia. Qed.
Lemma psh_not : forall a h w f, psh a h (TInt w) f -> 0 < w -> 0 <= scnt h -> psh (eNotT (sty h (TInt w)) a) h (TInt w) (fun k => knot w (f k)).
Proof.
  intros a h w f A W N. unfold eNotT. eapply psh_bin; [exact A|apply psh_ones; assumption|lia|]. cbn beta. intros k K I J. split; [|apply knot_inr; exact I].
  cbn [ibin]. rewrite xor_ones by assumption. reflexivity.
Qed.
Lemma psh_shl : forall a b h w f z, psh a h (TInt w) f -> psh b h (TInt w) (fun _ => z) -> 0 <= z < w -> psh (eShl a b) h (TInt w) (fun k => trunc w (f k * 2 ^ z)).
Proof.
  intros. eapply psh_bin; eauto; [lia|]. intros. split; [|apply trunc_inr; lia]. cbn [ibin]. replace (z <? w) with true by lia.
  rewrite Z.shiftl_mul_pow2 by lia. reflexivity.
Qed.
Lemma psh_lshr : forall a b h w f z, psh a h (TInt w) f -> psh b h (TInt w) (fun _ => z) -> 0 <= z < w -> psh (eBin LShr a b) h (TInt w) (fun k => f k / 2 ^ z).
Proof.
  intros. eapply psh_bin; eauto; [lia|]. intros k K I J. cbn [ibin]. replace (z <? w) with true by lia.
  rewrite Z.shiftr_div_pow2 by lia. split; [reflexivity|]. apply div_inr; [lia|lia|exact I].
Qed.
Lemma psh_ashr : forall a b h w f z, psh a h (TInt w) f -> psh b h (TInt w) (fun _ => z) -> 0 <= z < w -> psh (eBin AShr a b) h (TInt w) (fun k => trunc w (S_ w (f k) / 2 ^ z)).
Proof.
  intros. eapply psh_bin; eauto; [lia|]. intros k K I J. cbn [ibin]. replace (z <? w) with true by lia.
  rewrite Z.shiftr_div_pow2 by lia. rewrite S_small by exact I. split; [reflexivity|]. apply trunc_inr; lia.
Qed.
Lemma psh_cmp : forall p a b h w f g, psh a h (TInt w) f -> psh b h (TInt w) g -> 0 <= w ->
  psh (eCmp p a b) h (TInt 1) (fun k => b2z (icmp_sem p w (f k) (g k))).
Proof.
  intros p a b [|n] w f g A B W; cbn [psh] in *.
  - destruct A as [A I], B as [B J]. split; [|unfold inr; cbn; destruct (icmp_sem p w (f 0) (g 0)); cbn; lia].
    eapply pv_2; [exact A|exact B|]. cbn [sem2]. unfold cmp_sem, same2. cbn [ty_of]. rewrite ty_eqb_refl. reflexivity.
  - apply pvec_cmp; assumption.
Qed.
Lemma psh_sel : forall q a b h t x f g, psh q h (TInt 1) (fun j => b2z (x j)) -> psh a h t f -> psh b h t g -> 1 <= tsize t ->
  psh (eSel q a b) h t (fun j => if x j then f j else g j).
Proof.
  intros q a b [|n] t x f g Q A B T; cbn [psh] in *.
  - destruct Q as [Q I], A as [A J], B as [B L]. split; [|destruct (x 0); assumption].
    eapply pv_3; [exact Q|exact A|exact B|]. cbn [sem3]. unfold sel_sem. cbn [ty_of]. rewrite ty_eqb_refl. destruct (x 0); reflexivity.
  - eapply pvec_sel; eassumption.
Qed.
Lemma psh_sext : forall a h w w' f, psh a h (TInt w) f -> 0 <= w < w' -> psh (eCast CSExt (sty h (TInt w')) a) h (TInt w') (fun k => sext w w' (f k)).
Proof.
  intros a [|n] w w' f A W; cbn [psh sty] in *.
  - destruct A as [A I]. split; [|apply sext_inr; cbn [tsize] in *; lia]. eapply pv_1; [exact A|]. cbn [sem1]. unfold cast_sem, cast_fun. cbn [ty_of].
    cbn [ty_eqb]. replace (w =? w') with false by lia. cbn [icast]. replace (w <=? w') with true by lia. reflexivity.
  - apply pvec_sext; assumption.
Qed.
End Eval.

(** ** Vector arrangements *)
Lemma es_bits : forall v, ElemBits v = esize v.
Proof. intros []; reflexivity. Qed.
Lemma ne_elems : forall v, NumElem v = elems v.
Proof. intros []; reflexivity. Qed.
Lemma ty_va : forall v, TypeOf v false = TVec (elems v) (TInt (esize v)).
Proof. intros []; reflexivity. Qed.
Lemma ext_va : forall v, ExtTy v = TVec (elems v) (TInt (2 * esize v)).
Proof. intros []; reflexivity. Qed.
Lemma es_cases : forall v, esize v = 8 \/ esize v = 16 \/ esize v = 32 \/ esize v = 64.
Proof. intros []; cbn; lia. Qed.
Lemma es_pos : forall v, 8 <= esize v <= 64.
Proof. intros []; cbn; lia. Qed.
Lemma el_pos : forall v, 1 <= elems v <= 16.
Proof. intros []; cbn; lia. Qed.
Lemma es_el : forall v, esize v * elems v <= 128.
Proof. intros []; cbn; lia. Qed.
Lemma gf_va : forall v z, get_facet (Some z) (FacetOf v false) = V (TVec (elems v) (TInt (esize v))) (trunc (esize v * elems v) z).
Proof. intros [] z; reflexivity. Qed.
Lemma gf_full : forall v z, get_facet (Some z) (FacetOf (FullVa v) false) = V (TVec (128 / esize v) (TInt (esize v))) (trunc (esize v * (128 / esize v)) z).
Proof. intros [] z; reflexivity. Qed.
Lemma gf_sc : forall v z, get_facet (Some z) (sc_facet (fsz_of v) false) = V (TInt (esize v)) (trunc (esize v * 1) z).
Proof. intros [] z; reflexivity. Qed.
Lemma ft_va : forall v, facet_type (FacetOf v false) = TVec (elems v) (TInt (esize v)).
Proof. exact ty_va. Qed.
(** The shape of an instruction with a scalar form. *)
Definition shape (i : vinst) : shp := if v_scalar i then Sc else Vc (elems (v_va i)).
Definition ifacet (i : vinst) : facet := if v_scalar i then sc_facet (fsz_of (v_va i)) false else FacetOf (v_va i) false.
Lemma gf_sh : forall i z, get_facet (Some z) (ifacet i) = V (sty (shape i) (TInt (esize (v_va i)))) (trunc (esize (v_va i) * scnt (shape i)) z).
Proof. intros i z. unfold ifacet, shape. destruct (v_scalar i); [apply gf_sc|apply gf_va]. Qed.
Lemma ft_sh : forall i, facet_type (ifacet i) = sty (shape i) (TInt (esize (v_va i))).
Proof. intros i. unfold ifacet, shape. destruct (v_scalar i); [destruct (v_va i); reflexivity|apply ty_va]. Qed.
Lemma sh_pos : forall i, 1 <= scnt (shape i) <= 16.
Proof. intro i. unfold shape. destruct (v_scalar i); cbn [scnt]; [lia|apply el_pos]. Qed.

(** ** Execution *)
Section Exec.
Context `{FpuOps}.
Variable c : cenv.
Hypothesis HA : c_arch c = AArch64.

(** The temporaries hold the registers read. *)
Fixpoint rv_ok (g : kst) (rs : list (nat * Z * facet)) (vs : nat -> option rv) : Prop :=
  match rs with
  | [] => True
  | (x, r, f) :: tl => vs x = Some (get_facet (Some (k_q g r)) f) /\ rv_ok g tl vs
  end.
Definition rn3 (r : nat * Z * facet) : nat := fst (fst r).
Fixpoint nodup3 (l : list (nat * Z * facet)) : bool :=
  match l with [] => true | r :: tl => negb (existsb (fun r' => Nat.eqb (rn3 r) (rn3 r')) tl) && nodup3 tl end.
Lemma rv_ok_mono : forall g rs vs vs', rv_ok g rs vs -> (forall x v, vs x = Some v -> vs' x = Some v) -> rv_ok g rs vs'.
Proof. induction rs as [|[[x r] f] tl IH]; cbn [rv_ok]; intros vs vs' A M; [exact I|]. destruct A as [A B]. split; [apply M; exact A|eapply IH; eassumption]. Qed.

Lemma kvals_rd : forall g p vs r f, okq r = true -> kvals c g p vs (rG (VEC r) f) (get_facet (Some (k_q g r)) f).
Proof.
  intros g p vs r f O s rt (R & _). unfold ev, rG. cbn [eval leaf_val]. rewrite (kr_q _ _ R r) by (unfold okq in O; lia). reflexivity.
Qed.
Lemma K_reads : forall rs g p vs rt l Q, nodup3 rs = true -> forallb (fun r => okq (snd (fst r))) rs = true ->
  (forall vs', (forall x v, vs x = Some v -> existsb (fun r => Nat.eqb x (rn3 r)) rs = false -> vs' x = Some v) -> rv_ok g rs vs' -> K c g p vs' rt l Q) ->
  K c g p vs rt (map rdv rs ++ l) Q.
Proof.
  induction rs as [|[[x r] f] tl IH]; intros g p vs rt l Q ND OK T.
  - cbn [map app]. apply T; [auto|exact I].
  - cbn [nodup3 forallb snd fst] in ND, OK. apply andb_true_iff in ND, OK. destruct ND as [NX ND], OK as [OX OK].
    cbn [map app rdv]. eapply K_let; [apply kvals_rd; exact OX|]. apply IH; [exact ND|exact OK|]. intros vs' M R.
    assert (VX : vs' x = Some (get_facet (Some (k_q g r)) f)).
    { apply M; [unfold upd_var; rewrite Nat.eqb_refl; reflexivity|]. apply negb_true_iff in NX. exact NX. }
    apply T.
    + intros y u Y E. cbn [existsb rn3 fst] in E. apply orb_false_iff in E. destruct E as [EY E]. apply M; [|exact E].
      unfold upd_var. rewrite Nat.eqb_sym, EY. exact Y.
    + split; assumption.
Qed.
(** A value of the temporaries is a value in every state that has them. *)
Lemma pv_kvals : forall g p rs vs e v, rv_ok g rs vs -> (forall vs', rv_ok g rs vs' -> pv c vs' e v) -> kvals c g p vs e v.
Proof.
  intros g p rs vs e v R P s rt (_ & _ & VS & _). apply (P (s_var s)); [|reflexivity]. eapply rv_ok_mono; [exact R|]. exact VS.
Qed.

Lemma vec_128 : forall w f n, 0 <= w -> 0 <= n -> w * n <= 128 -> (forall k, 0 <= k < n -> inr w (f k)) -> inr 128 (vec w f (Z.to_nat n)).
Proof.
  intros w f n W N L I. pose proof (vec_inr w f (Z.to_nat n) W) as X. rewrite Z2Nat.id in X by lia. specialize (X I).
  unfold inr in *. pose proof (Z.pow_le_mono_r 2 (w * n) 128 ltac:(lia) L). lia.
Qed.
(** The effect of one SIMD instruction's code. *)
Definition vlift (g : kst) (l : list stm) (g' : kst) : Prop :=
  forall p rt l' Q, (forall vs, K c g' p vs rt l' Q) -> K c g p vs0 rt (l ++ l') Q.
Definition vok (r : vres) (g g' : kst) : Prop := exists l, r = Some (Some l) /\ vlift g l g'.

Lemma ret_ok : forall rs rd e g h t f f', nodup3 rs = true -> forallb (fun r => okq (snd (fst r))) rs = true -> okq rd = true ->
  0 <= tsize t -> 0 <= scnt h -> tsize t * scnt h <= 128 ->
  (forall vs, rv_ok g rs vs -> psh c vs e h t f) -> (forall k, 0 <= k < scnt h -> f k = f' k) ->
  vok (ret rs rd e) g (wrq g rd (vec (tsize t) f' (Z.to_nat (scnt h)))).
Proof.
  intros rs rd e g h t f f' ND OK OD T N L P E. eexists. split; [reflexivity|]. intros p rt l' Q C. unfold emit. rewrite <- app_assoc.
  apply K_reads; [exact ND|exact OK|]. intros vs' _ R. cbn [app].
  assert (P' : forall vs, rv_ok g rs vs -> psh c vs e h t f') by (intros vs V0; eapply psh_ext; [apply P; exact V0|exact N|exact E]).
  eapply (K_setq c HA).
  - eapply pv_kvals; [exact R|]. intros vs V0. apply psh_pv; [apply P'; exact V0|exact T].
  - exact OD.
  - apply vec_128; try assumption. intros k K0. eapply psh_inr; [apply (P' vs' R)|exact K0].
  - apply C.
Qed.
End Exec.
