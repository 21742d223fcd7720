(** The register file refines a map from registers to plain cells. *)

From Coq Require Import ZArith Lia ZifyBool List Bool.
From Verif Require Import Bits IR Facet Dsl RegFile.
Import ListNotations.
Open Scope Z_scope.
Ltac Zify.zify_post_hook ::= Z.div_mod_to_equations.

(** ** Overlays *)
(** [o] with its low [s] bits replaced by [x]. *)
Definition ov (s o x : Z) : Z := Z.shiftl (Z.shiftr o s) s + x.

Lemma ov_lor : forall s o x, 0 <= s -> inr s x -> ov s o x = Z.lor (Z.shiftl (Z.shiftr o s) s) x.
Proof.
  intros s o x S I. unfold ov. rewrite Z.add_nocarry_lxor, Z.lxor_lor; [reflexivity| |].
  all: apply Z.bits_inj'; intros i Hi; rewrite Z.land_spec, Z.shiftl_spec, Z.bits_0 by lia;
    destruct (Z.ltb_spec i s).
  all: try (rewrite Z.testbit_neg_r by lia; reflexivity).
  all: rewrite (testbit_inr_high s x i) by (assumption || lia); apply andb_false_r.
Qed.
Lemma testbit_ov : forall s o x i, 0 <= s -> inr s x -> 0 <= i ->
  Z.testbit (ov s o x) i = if i <? s then Z.testbit x i else Z.testbit o i.
Proof.
  intros s o x i S I Hi. rewrite ov_lor by assumption. rewrite Z.lor_spec, Z.shiftl_spec by lia.
  destruct (Z.ltb_spec i s).
  - rewrite Z.testbit_neg_r by lia. reflexivity.
  - rewrite Z.shiftr_spec by lia. rewrite (testbit_inr_high s x i) by (assumption || lia).
    rewrite orb_false_r. f_equal. lia.
Qed.
Lemma ov_inr : forall w s o x, 0 <= s <= w -> inr w o -> inr s x -> inr w (ov s o x).
Proof.
  intros w s o x S O X. unfold ov. rewrite Z.shiftl_mul_pow2, Z.shiftr_div_pow2 by lia.
  pose proof (pow2_pos s ltac:(lia)). unfold inr in *.
  assert (E : 2^w = 2^(w-s) * 2^s) by (rewrite <- Z.pow_add_r by lia; f_equal; lia).
  assert (0 <= o / 2^s < 2^(w-s)).
  { split; [apply Z.div_pos; lia|apply Z.div_lt_upper_bound; lia]. }
  nia.
Qed.
Lemma ov_zero : forall s x, ov s 0 x = x.
Proof. intros. unfold ov. rewrite Z.shiftr_0_l, Z.shiftl_0_l. lia. Qed.
Lemma ov_full : forall s o x, 0 <= s -> inr s o -> ov s o x = x.
Proof. intros s o x S [A B]. unfold ov. rewrite Z.shiftr_div_pow2, Z.div_small, Z.shiftl_0_l by lia. lia. Qed.
Lemma trunc_ov : forall t s o x, 0 <= t <= s -> inr s x -> trunc t (ov s o x) = trunc t x.
Proof.
  intros t s o x T X. unfold ov, trunc. rewrite Z.shiftl_mul_pow2 by lia.
  replace (2^s) with (2^(s-t) * 2^t) by (rewrite <- Z.pow_add_r by lia; f_equal; lia).
  rewrite Z.mul_assoc, Z.add_comm, Z_mod_plus_full. reflexivity.
Qed.
Lemma ov_same : forall s o, 0 <= s -> ov s o (trunc s o) = o.
Proof.
  intros s o S. unfold ov, trunc. rewrite Z.shiftl_mul_pow2, Z.shiftr_div_pow2 by lia.
  pose proof (Z_div_mod_eq_full o (2^s)). lia.
Qed.
Lemma ov_ov : forall s t o x y, 0 <= s <= t -> inr s x -> inr t y -> ov t (ov s o x) y = ov t o y.
Proof.
  intros s t o x y S X Y. unfold ov at 1 3. f_equal. f_equal. apply Z.bits_inj'. intros i Hi.
  rewrite !Z.shiftr_spec by lia. rewrite testbit_ov by (assumption || lia).
  destruct (Z.ltb_spec (i + t) s); [lia|reflexivity].
Qed.

(** ** Meaning of values *)
Section Ok.
Context `{FpuOps}.
Variable A : arch.
Notation nsize := (native_size A).

Definition aty (a : atom) : ty :=
  match a with AVar _ t => t | APhi _ r => facet_type (native_facet A r) | ASlot _ _ t => t end.
Definition env := atom -> rv.
Definition env_ok (e : env) : Prop := forall a, ty_of (e a) = aty a /\ wf_rv (e a).
Definition vev (e : env) (x : exp atom) : res rv := eval (fun a => Ok (e a)) x.

(** [v] evaluates in all well-typed environments, to a value of its type. *)
Definition tyok (v : value) : Prop := forall e, env_ok e ->
  exists x, vev e (v_e v) = Ok x /\ ty_of x = v_ty v /\ wf_rv x.
(** Its bit pattern; [None] for poison. *)
Definition pv (e : env) (v : value) : option Z :=
  match vev e (v_e v) with Ok (V _ z) => Some z | _ => None end.

Lemma pv_some : forall e v z, env_ok e -> tyok v -> pv e v = Some z ->
  vev e (v_e v) = Ok (V (v_ty v) z) /\ inr (tsize (v_ty v)) z.
Proof.
  intros e v z E T P. destruct (T e E) as (x & X & TY & W). unfold pv in P. rewrite X in *.
  destruct x; [|discriminate]. injection P as ->. cbn in TY, W. subst. auto.
Qed.
Lemma pv_none : forall e v, env_ok e -> tyok v -> pv e v = None ->
  vev e (v_e v) = Ok (Poison (v_ty v)).
Proof.
  intros e v E T P. destruct (T e E) as (x & X & TY & W). unfold pv in P. rewrite X in *.
  destruct x; [discriminate|]. cbn in TY. subst. auto.
Qed.
(** Conversely. *)
Lemma mk_tyok : forall v (F : env -> option Z), (forall e, env_ok e ->
  match F e with
  | Some z => vev e (v_e v) = Ok (V (v_ty v) z) /\ inr (tsize (v_ty v)) z
  | None => vev e (v_e v) = Ok (Poison (v_ty v))
  end) -> tyok v /\ forall e, env_ok e -> pv e v = F e.
Proof.
  intros v F X. split.
  - intros e E. specialize (X e E). destruct (F e).
    + destruct X as [X1 X2]. exists (V (v_ty v) z). auto.
    + exists (Poison (v_ty v)). cbn. auto.
  - intros e E. specialize (X e E). unfold pv. destruct (F e); [destruct X as [-> _]|rewrite X]; reflexivity.
Qed.
Definition omap (f : Z -> Z) (o : option Z) : option Z := match o with Some z => Some (f z) | None => None end.
Definition omap2 (f : Z -> Z -> Z) (o q : option Z) : option Z :=
  match o, q with Some a, Some b => Some (f a b) | _, _ => None end.

Lemma ty_eqb_neq : forall a b, ty_eqb a b = false -> a <> b.
Proof. intros a b E F. apply ty_eqb_eq in F. congruence. Qed.

(** Casts. *)
Lemma mk_cast_spec : forall c t v v', mk_cast c t v = Some v' -> tyok v ->
  (forall f z, v_ty v <> t -> cast_fun c (v_ty v) t = Some f -> inr (tsize (v_ty v)) z -> inr (tsize t) (f z)) ->
  tyok v' /\ v_ty v' = t /\
  exists f, cast_fun c (v_ty v) t = Some f /\ forall e, env_ok e -> pv e v' = omap f (pv e v).
Proof.
  intros c t v v' M T R. unfold mk_cast in M. destruct (ty_eqb (v_ty v) t) eqn:Q.
  - injection M as <-. apply ty_eqb_eq in Q. split; [assumption|]. split; [assumption|].
    exists (fun z => z). split. { unfold cast_fun. rewrite Q, ty_eqb_refl. reflexivity. }
    intros. destruct (pv e v); reflexivity.
  - apply ty_eqb_neq in Q. destruct (cast_fun c (v_ty v) t) as [f|] eqn:CF; [|discriminate]. injection M as <-.
    assert (X : tyok (Val t (E1 (OCast c t) (v_e v))) /\
                forall e, env_ok e -> pv e (Val t (E1 (OCast c t) (v_e v))) = omap f (pv e v)).
    { apply mk_tyok. intros e E. cbn [v_e v_ty]. unfold vev. cbn [eval]. destruct (pv e v) as [z|] eqn:P; cbn [omap].
      - destruct (pv_some e v z E T P) as [X1 X2]. unfold vev in X1. rewrite X1. cbn [bind sem1]. unfold cast_sem.
        cbn [ty_of]. rewrite CF. split; [reflexivity|]. apply (R f z Q eq_refl X2).
      - pose proof (pv_none e v E T P) as X1. unfold vev in X1. rewrite X1. cbn [bind sem1]. unfold cast_sem.
        cbn [ty_of]. rewrite CF. reflexivity. }
    destruct X as [X1 X2]. split; [assumption|]. split; [reflexivity|]. exists f. auto.
Qed.
(** Bit casts keep the pattern. *)
Lemma mk_bitcast : forall c t v v', c = CBitCast \/ c = CBitOrPtr -> mk_cast c t v = Some v' -> tyok v ->
  tyok v' /\ v_ty v' = t /\ tsize t = tsize (v_ty v) /\ forall e, env_ok e -> pv e v' = pv e v.
Proof.
  intros c t v v' C M T.
  assert (X : forall f, cast_fun c (v_ty v) t = Some f -> tsize t = tsize (v_ty v) /\ forall z, f z = z).
  { intros f CF. unfold cast_fun in CF. destruct (ty_eqb (v_ty v) t) eqn:Q.
    - apply ty_eqb_eq in Q. rewrite Q. injection CF as <-. auto.
    - destruct C as [-> | ->].
      + destruct ((tsize (v_ty v) =? tsize t) && negb (is_ptr (v_ty v)) && negb (is_ptr t)) eqn:B; [|discriminate].
        injection CF as <-. split; [lia|reflexivity].
      + destruct (v_ty v) as [w| | | |n s]; destruct t as [w'| | | |n' s'];
        repeat match type of CF with context [if ?b then _ else _] => destruct b eqn:? end; try discriminate;
        injection CF as <-; (split; [cbn [tsize] in *; lia|reflexivity]). }
  destruct (mk_cast_spec c t v v' M T) as (T' & Y & f & CF & P).
  - intros f z _ CF I. destruct (X f CF) as [S F]. rewrite F, S. assumption.
  - destruct (X f CF) as [S F]. split; [assumption|]. split; [assumption|]. split; [assumption|].
    intros e E. rewrite (P e E). destruct (pv e v); cbn [omap]; [rewrite F|]; reflexivity.
Qed.
(** Integer casts. *)
Lemma mk_trunc : forall w w' v, v_ty v = TInt w -> 0 <= w' <= w -> tyok v ->
  exists v', mk_cast CTrunc (TInt w') v = Some v' /\ tyok v' /\ v_ty v' = TInt w' /\
             forall e, env_ok e -> pv e v' = omap (trunc w') (pv e v).
Proof.
  intros w w' v Y W T. destruct (mk_cast CTrunc (TInt w') v) as [v'|] eqn:M.
  - exists v'. split; [reflexivity|]. destruct (mk_cast_spec _ _ _ _ M T) as (T' & Y' & f & CF & P).
    + intros f z N CF I. rewrite Y in *. unfold cast_fun in CF. cbn [ty_eqb icast] in CF.
      destruct (w =? w') eqn:Q; [exfalso; apply N; f_equal; lia|].
      destruct (w' <=? w); [|discriminate]. injection CF as <-. apply trunc_range. lia.
    + split; [assumption|]. split; [assumption|]. intros e E. rewrite (P e E). rewrite Y in CF.
      unfold cast_fun in CF. cbn [ty_eqb icast] in CF.
      destruct (pv e v) as [z|] eqn:PV; [|reflexivity]. destruct (pv_some e v z E T PV) as [_ I]. rewrite Y in I. cbn [tsize] in I.
      cbn [omap]. destruct (w =? w') eqn:Q.
      * injection CF as <-. assert (w' = w) by lia. subst. rewrite trunc_small by assumption. reflexivity.
      * destruct (w' <=? w); [|discriminate]. injection CF as <-. reflexivity.
  - exfalso. unfold mk_cast in M. destruct (ty_eqb (v_ty v) (TInt w')) eqn:Q; [discriminate|].
    rewrite Y in *. unfold cast_fun in M. rewrite Q in M. cbn [icast] in M. destruct (w' <=? w) eqn:L; [discriminate|lia].
Qed.
Lemma mk_zext : forall c w w' v, c = CZExt \/ c = CZExtOrTrunc -> v_ty v = TInt w -> 0 <= w <= w' -> tyok v ->
  exists v', mk_cast c (TInt w') v = Some v' /\ tyok v' /\ v_ty v' = TInt w' /\
             forall e, env_ok e -> pv e v' = pv e v.
Proof.
  intros c w w' v C Y W T.
  assert (CF0 : exists f, cast_fun c (TInt w) (TInt w') = Some f /\ forall z, inr w z -> f z = z).
  { unfold cast_fun. destruct (ty_eqb (TInt w) (TInt w')); [eexists; split; [reflexivity|auto]|].
    destruct C as [-> | ->]; cbn [icast].
    - destruct (w <=? w') eqn:L; [|lia]. eexists; split; [reflexivity|auto].
    - eexists; split; [reflexivity|]. intros z I. apply trunc_small. apply (inr_le w); [lia|assumption]. }
  destruct CF0 as (f0 & CF0 & F0).
  destruct (mk_cast c (TInt w') v) as [v'|] eqn:M.
  - exists v'. split; [reflexivity|]. destruct (mk_cast_spec _ _ _ _ M T) as (T' & Y' & f & CF & P).
    + intros f z N CF I. rewrite Y in *. rewrite CF0 in CF. injection CF as <-. rewrite F0 by assumption.
      apply (inr_le w); [cbn [tsize]; lia|assumption].
    + split; [assumption|]. split; [assumption|]. intros e E. rewrite (P e E). rewrite Y, CF0 in CF. injection CF as <-.
      destruct (pv e v) as [z|] eqn:PV; [|reflexivity]. destruct (pv_some e v z E T PV) as [_ I]. rewrite Y in I. cbn [tsize] in I.
      cbn [omap]. rewrite F0 by assumption. reflexivity.
  - exfalso. unfold mk_cast in M. destruct (ty_eqb (v_ty v) (TInt w')) eqn:Q; [discriminate|].
    rewrite Y, CF0 in M. discriminate.
Qed.

(** Types the register file handles. *)
Definition okw (w : Z) : Prop := w = 1 \/ w = 8 \/ w = 16 \/ w = 32 \/ w = 64 \/ w = 128.
Definition okscalar (t : ty) : Prop :=
  match t with TInt w => okw w | TF32 | TF64 => True | _ => False end.
(** Kind of a register: native size and whether it holds integers and pointers
    (general-purpose and flag registers) or integers, floats and vectors. *)
Record nk := Nk { nz :> Z; nb : bool }.
Definition okty (n : nk) (t : ty) : Prop :=
  match t with
  | TPtr => nz n = 64 /\ nb n = true
  | TVec m e => nb n = false /\ 0 < m /\ okscalar e /\ okw (tsize t)
  | TInt w => okw w
  | _ => nb n = false
  end /\ tsize t <= n.

Lemma okw_dvd : forall s w, okw s -> okw w -> s <= w -> w / s * s = w /\ 0 < w / s.
Proof. unfold okw. intros s w S W L. lia. Qed.
Lemma okscalar_okw : forall t, okscalar t -> okw (tsize t).
Proof. destruct t; cbn; unfold okw; intros; try tauto; lia. Qed.
Lemma okty_okw : forall n t, okty n t -> okw (tsize t).
Proof.
  intros n t [X _]. destruct t; cbn [tsize]; try (unfold okw; lia); try assumption. apply X.
Qed.
Lemma okw_pos : forall w, okw w -> 0 < w.
Proof. unfold okw. lia. Qed.

Lemma bin_land : forall w a b, bin_sem And (V (TInt w) a) (V (TInt w) b) = Ok (V (TInt w) (Z.land a b)).
Proof. intros. unfold bin_sem, same2. cbn [ty_of]. rewrite ty_eqb_refl. reflexivity. Qed.
Lemma bin_lor : forall w a b, bin_sem Or (V (TInt w) a) (V (TInt w) b) = Ok (V (TInt w) (Z.lor a b)).
Proof. intros. unfold bin_sem, same2. cbn [ty_of]. rewrite ty_eqb_refl. reflexivity. Qed.
Lemma bin_poison_l : forall op w y, is_div op = false -> ty_of y = TInt w ->
  bin_sem op (Poison (TInt w)) y = Ok (Poison (TInt w)).
Proof.
  intros op w y D Y. unfold bin_sem, same2. rewrite Y. cbn [ty_of]. rewrite ty_eqb_refl, D.
  destruct y; cbn in Y; rewrite ?Y; reflexivity.
Qed.
Lemma bin_poison_r : forall op w y, is_div op = false -> ty_of y = TInt w ->
  bin_sem op y (Poison (TInt w)) = Ok (Poison (TInt w)).
Proof.
  intros op w y D Y. unfold bin_sem, same2. rewrite Y. cbn [ty_of]. rewrite ty_eqb_refl, D.
  destruct y; cbn in Y; rewrite ?Y; reflexivity.
Qed.
(** Integer fold. *)
Lemma land_mask_lor : forall w s a b, 0 <= s <= w -> inr w a -> inr s b ->
  Z.lor (Z.land a (trunc w (Z.ones w - Z.ones s))) b = ov s a b.
Proof.
  intros w s a b S I B.
  assert (M : Z.ones w - Z.ones s = Z.shiftl (Z.ones (w - s)) s).
  { rewrite Z.shiftl_mul_pow2, !Z.ones_equiv by lia.
    assert (2^w = 2^(w-s) * 2^s) by (rewrite <- Z.pow_add_r by lia; f_equal; lia). nia. }
  rewrite M. apply Z.bits_inj'. intros i Hi.
  rewrite testbit_ov by (assumption || lia). rewrite Z.lor_spec, Z.land_spec, testbit_trunc, Z.shiftl_spec by lia.
  destruct (Z.ltb_spec i s).
  - rewrite (Z.testbit_neg_r (Z.ones _)) by lia. rewrite !andb_false_r. reflexivity.
  - rewrite (testbit_inr_high s b i) by (assumption || lia). rewrite orb_false_r.
    destruct (Z.ltb_spec i w).
    + rewrite testbit_ones by lia. destruct (Z.ltb_spec (i - s) (w - s)); [|lia]. rewrite !andb_true_r. reflexivity.
    + rewrite (testbit_inr_high w a i) by (assumption || lia). reflexivity.
Qed.

Definition wf_piece (n : nk) (p : piece) : Prop :=
  tyok (p_a p) /\ okty n (v_ty (p_a p)) /\ p_size p = tsize (v_ty (p_a p)) /\
  (forall vb, p_b p = Some vb -> tyok vb /\ tsize (v_ty vb) = p_size p /\ forall e, env_ok e -> pv e vb = pv e (p_a p)).

(** Folding the dirty pieces over a start value. *)
Definition ovo (s : Z) (o x : option Z) : option Z := omap2 (ov s) o x.
Fixpoint foldv (e : env) (o : option Z) (vs : list piece) : option Z :=
  match vs with
  | [] => o
  | p :: vs' => foldv e (if p_dirty p then ovo (p_size p) o (pv e (p_a p)) else o) vs'
  end.

Lemma fold_int_ok : forall n w vs res, 0 < w ->
  Forall (wf_piece n) vs -> Forall (fun p => p_dirty p = true -> p_size p <= w /\ v_ty (p_a p) <> TPtr) vs ->
  v_ty res = TInt w -> tyok res ->
  exists v', fold_int w res vs = Some v' /\ tyok v' /\ v_ty v' = TInt w /\
             forall e, env_ok e -> pv e v' = foldv e (pv e res) vs.
Proof.
  induction vs as [|p vs IH]; intros res W F1 F2 Y T.
  - exists res. cbn. auto.
  - inversion F1 as [|? ? P1 F1']; subst. inversion F2 as [|? ? P2 F2']; subst. cbn [fold_int foldv].
    destruct (p_dirty p) eqn:D; [|apply IH; assumption].
    destruct P1 as (T1 & O1 & S1 & _). destruct (P2 eq_refl) as [L1 NP].
    pose proof (okw_pos _ (okty_okw _ _ O1)) as SP.
    destruct (mk_cast CBitCast (TInt (p_size p)) (p_a p)) as [v1|] eqn:M1.
    2: { exfalso. unfold mk_cast in M1. destruct (ty_eqb (v_ty (p_a p)) (TInt (p_size p))) eqn:Q; [discriminate|].
         unfold cast_fun in M1. rewrite Q in M1. cbn [tsize is_ptr] in M1. rewrite <- S1, Z.eqb_refl in M1.
         destruct (v_ty (p_a p)); try discriminate. contradiction. }
    destruct (mk_bitcast _ _ _ _ (or_introl eq_refl) M1 T1) as (T1' & Y1 & _ & PV1).
    destruct (mk_zext CZExt (p_size p) w v1 (or_introl eq_refl) Y1 ltac:(lia) T1') as (v2 & M2 & T2 & Y2 & PV2).
    rewrite M2.
    set (res' := Val (TInt w) _).
    assert (X : tyok res' /\ forall e, env_ok e -> pv e res' = ovo (p_size p) (pv e res) (pv e (p_a p))).
    { apply mk_tyok. intros e E. subst res'. cbn [v_e v_ty]. unfold vev, eOr, eAnd, eBin. cbn [eval tsize bind sem2].
      rewrite <- (PV1 e E), <- (PV2 e E).
      destruct (T2 e E) as (x2 & EX2 & TX2 & _). rewrite Y2 in TX2. unfold vev in EX2.
      destruct (pv e res) as [a|] eqn:PA.
      - destruct (pv_some _ _ _ E T PA) as [EA IA]. rewrite Y in *. cbn [tsize] in IA. unfold vev in EA. rewrite EA.
        cbn [bind sem2]. rewrite bin_land. cbn [bind].
        destruct (pv e v2) as [b|] eqn:PB; cbn [ovo omap2].
        + destruct (pv_some _ _ _ E T2 PB) as [EB IB]. rewrite Y2 in *. unfold vev in EB. rewrite EB.
          assert (IB' : inr (p_size p) b).
          { rewrite (PV2 e E), (PV1 e E) in PB. destruct (pv_some _ _ _ E T1 PB) as [_ IB']. rewrite <- S1 in IB'. assumption. }
          cbn [bind]. rewrite bin_lor.
          rewrite land_mask_lor by (assumption || lia). split; [reflexivity|]. apply ov_inr; (assumption || lia).
        + pose proof (pv_none _ _ E T2 PB) as EB. rewrite Y2 in EB. unfold vev in EB. rewrite EB.
          cbn [bind]. apply bin_poison_r; reflexivity.
      - pose proof (pv_none _ _ E T PA) as EA. rewrite Y in EA. unfold vev in EA. rewrite EA.
        cbn [bind sem2]. rewrite bin_poison_l by reflexivity. cbn [bind]. rewrite EX2. cbn [bind].
        cbn [ovo omap2]. apply bin_poison_l; [reflexivity|assumption]. }
    destruct X as [TX PX].
    destruct (IH res' W F1' F2' eq_refl TX) as (v' & M & T' & Y' & P').
    exists v'. split; [exact M|]. split; [assumption|]. split; [assumption|]. intros e E. rewrite (P' e E), (PX e E). reflexivity.
Qed.

(** ** Vectors *)

Lemma seqZ_length : forall n, length (seqZ n) = Z.to_nat n.
Proof. intros. unfold seqZ. rewrite map_length, seq_length. reflexivity. Qed.
Lemma in_seqZ : forall n j, In j (seqZ n) <-> 0 <= j < n.
Proof.
  intros n j. unfold seqZ. rewrite in_map_iff. split.
  - intros (k & K & I). apply in_seq in I. lia.
  - intros J. exists (Z.to_nat j). split; [lia|]. apply in_seq. lia.
Qed.
Lemma lanes_from_map : forall n w z i, lanes_from w z i n = map (fun j => lane w z (i + Z.of_nat j)) (seq 0 n).
Proof.
  induction n; intros; [reflexivity|]. cbn [lanes_from seq map]. f_equal; [f_equal; lia|].
  rewrite IHn, <- seq_shift, map_map. apply map_ext. intros. f_equal. lia.
Qed.
Lemma lanes_seqZ : forall n w z, lanes n w z = map (lane w z) (seqZ n).
Proof. intros. unfold lanes, seqZ. rewrite lanes_from_map, map_map. reflexivity. Qed.
Lemma unlanes_map : forall n w z f, 0 < w -> 0 <= n -> inr (w * n) z ->
  (forall j, 0 <= j < n -> f j = lane w z j) -> unlanes w (map f (seqZ n)) = z.
Proof.
  intros n w z f W N I X. rewrite <- (unlanes_lanes n w z W N I) at 1. rewrite lanes_seqZ. f_equal.
  apply map_ext_in. intros j J. apply X. apply in_seqZ. assumption.
Qed.
Lemma lane_ov : forall w c a b j, 0 < w -> 0 <= c -> inr (w * c) b -> 0 <= j ->
  lane w (ov (w * c) a b) j = if j <? c then lane w b j else lane w a j.
Proof.
  intros w c a b j W C I J. apply (bits_eq w); try lia; try (apply lane_inr; lia).
  { destruct (j <? c); apply lane_inr; lia. }
  intros i Hi. rewrite testbit_lane, testbit_ov by (assumption || nia).
  destruct (Z.ltb_spec j c); rewrite testbit_lane by lia.
  - destruct (Z.ltb_spec (w * j + i) (w * c)); [reflexivity|nia].
  - destruct (Z.ltb_spec (w * j + i) (w * c)); [nia|reflexivity].
Qed.
Lemma lane_high : forall w c b j, 0 < w -> 0 <= c -> inr (w * c) b -> c <= j -> lane w b j = 0.
Proof.
  intros w c b j W C I J. apply (bits_eq w); try lia. { apply lane_inr; lia. } { unfold inr. pose proof (pow2_pos w ltac:(lia)). lia. }
  intros i Hi. rewrite testbit_lane, Z.bits_0 by lia. apply (testbit_inr_high (w * c)); (assumption || nia).
Qed.
Lemma lane_zero : forall w j, lane w 0 j = 0.
Proof. intros. unfold lane. rewrite Z.shiftr_0_l. unfold trunc. apply Zmod_0_l. Qed.

(** Shuffles whose mask is in range. *)
Lemma shuf_ok : forall n t (m : list Z) x y, ty_of x = TVec n t -> ty_of y = TVec n t ->
  Forall (fun i => 0 <= i < 2 * n) m ->
  match x, y with
  | V _ a, V _ b => shuf_sem m x y = Ok (V (TVec (Z.of_nat (length m)) t)
                      (unlanes (tsize t) (map (fun i => if i <? n then lane (tsize t) a i else lane (tsize t) b (i - n)) m)))
  | V _ a, Poison _ => if existsb (fun i => n <=? i) m then shuf_sem m x y = Ok (Poison (TVec (Z.of_nat (length m)) t))
                       else shuf_sem m x y = Ok (V (TVec (Z.of_nat (length m)) t) (unlanes (tsize t) (map (fun i => lane (tsize t) a i) m)))
  | Poison _, _ => existsb (fun i => i <? n) m = true -> shuf_sem m x y = Ok (Poison (TVec (Z.of_nat (length m)) t))
  end.
Proof.
  intros n t m x y X Y F.
  assert (F1 : forallb (fun i => (-1 <=? i) && (i <? 2 * n)) m = true).
  { apply forallb_forall. intros i I. rewrite Forall_forall in F. specialize (F i I). lia. }
  assert (F2 : existsb (fun i => i =? -1) m = false).
  { apply not_true_is_false. intro B. apply existsb_exists in B. destruct B as (i & I & B).
    rewrite Forall_forall in F. specialize (F i I). lia. }
  unfold shuf_sem. rewrite X, Y, ty_eqb_refl, F1, F2. cbn [andb].
  destruct x, y; try reflexivity.
  - destruct (existsb (fun i => n <=? i) m); reflexivity.
  - intro B. replace (existsb (fun i => (0 <=? i) && (i <? n)) m) with true; [reflexivity|].
    symmetry. apply existsb_exists in B. destruct B as (i & I & B). apply existsb_exists. exists i. split; [assumption|].
    rewrite Forall_forall in F. specialize (F i I). lia.
Qed.

Lemma existsb_seqZ0 : forall (f : Z -> bool) n, 0 < n -> f 0 = true -> existsb f (seqZ n) = true.
Proof. intros f n N F. apply existsb_exists. exists 0. split; [apply in_seqZ; lia|assumption]. Qed.

(** regfile.cc: zero-extension of a vector by a shuffle with zero. *)
Lemma ext_ok : forall v n et cnt, tyok v -> v_ty v = TVec n et -> 0 < tsize et -> 0 < n <= cnt ->
  let v' := Val (TVec cnt et) (E2 (OShuf (map (fun j => if j <? n then j else n) (seqZ cnt))) (v_e v) (EConst (TVec n et) 0)) in
  tyok v' /\ forall e, env_ok e -> pv e v' = pv e v.
Proof.
  intros v n et cnt T Y W N v'. apply mk_tyok. intros e E. subst v'. cbn [v_e v_ty].
  unfold vev. cbn [eval].
  set (m := map _ (seqZ cnt)).
  assert (LM : Z.of_nat (length m) = cnt) by (subst m; rewrite map_length, seqZ_length; lia).
  assert (FM : Forall (fun i => 0 <= i < 2 * n) m).
  { subst m. apply Forall_forall. intros i I. apply in_map_iff in I. destruct I as (j & <- & J). apply in_seqZ in J.
    destruct (Z.ltb_spec j n); lia. }
  assert (Z0 : trunc (tsize (TVec n et)) 0 = 0) by apply Zmod_0_l.
  destruct (pv e v) as [z|] eqn:P.
  - destruct (pv_some _ _ _ E T P) as [X I]. unfold vev in X. rewrite X, Y in *. cbn [bind sem2]. rewrite Z0.
    pose proof (shuf_ok n et m (V (TVec n et) z) (V (TVec n et) 0) eq_refl eq_refl FM) as S. cbn iota in S.
    rewrite S, LM. cbn [tsize] in *.
    assert (I2 : inr (tsize et * cnt) z) by (apply (inr_le (n * tsize et)); [nia|assumption]).
    split.
    + f_equal. f_equal. subst m. rewrite map_map. apply unlanes_map; try lia; try assumption.
      intros j J. destruct (Z.ltb_spec j n).
      * destruct (Z.ltb_spec j n); [reflexivity|lia].
      * destruct (Z.ltb_spec n n); [lia|]. rewrite lane_zero. symmetry. apply (lane_high _ n); try lia. rewrite Z.mul_comm. assumption.
    + rewrite Z.mul_comm. assumption.
  - pose proof (pv_none _ _ E T P) as X. unfold vev in X. rewrite X, Y in *. cbn [bind sem2]. rewrite Z0.
    pose proof (shuf_ok n et m (Poison (TVec n et)) (V (TVec n et) 0) eq_refl eq_refl FM) as S. cbn iota in S.
    rewrite S, LM; [reflexivity|]. subst m. apply existsb_exists. exists 0. split; [|lia].
    apply in_map_iff. exists 0. split; [destruct (Z.ltb_spec 0 n); lia|apply in_seqZ; lia].
Qed.

(** insertelement at lane 0. *)
Lemma ins_ok : forall v1 pa t cnt, tyok v1 -> tyok pa -> v_ty v1 = TVec cnt t -> v_ty pa = t -> 0 < cnt -> 0 < tsize t ->
  let v' := Val (TVec cnt t) (E2 (OInsert 0) (v_e v1) (v_e pa)) in
  tyok v' /\ forall e, env_ok e -> pv e v' = ovo (tsize t) (pv e v1) (pv e pa).
Proof.
  intros v1 pa t cnt T1 T2 Y1 Y2 C W v'. apply mk_tyok. intros e E. subst v'. cbn [v_e v_ty]. unfold vev. cbn [eval].
  destruct (T2 e E) as (x2 & EX2 & TX2 & W2). rewrite Y2 in TX2. unfold vev in EX2.
  destruct (T1 e E) as (x1 & EX1 & TX1 & W1). rewrite Y1 in TX1. unfold vev in EX1.
  unfold pv, vev. rewrite EX1, EX2. cbn [bind sem2]. unfold insert_sem. rewrite TX1, TX2, ty_eqb_refl.
  replace (true && (0 <=? 0) && (0 <? cnt)) with true by lia.
  destruct x1 as [t1 a|t1]; [|reflexivity]. destruct x2 as [t2 b|t2]; [|reflexivity]. cbn in TX1, TX2, W1, W2. subst t1 t2.
  cbn [ovo omap2]. cbn [tsize] in *.
  assert (I : inr (cnt * tsize t) (ov (tsize t) a b)) by (apply ov_inr; [nia|assumption|assumption]).
  split; [|assumption]. f_equal. f_equal.
  transitivity (unlanes (tsize t) (map (fun j => if j <? 1 then b else lane (tsize t) a j) (seqZ cnt))).
  - rewrite lanes_seqZ. unfold seqZ. replace (Z.to_nat cnt) with (S (Z.to_nat (cnt - 1))) by lia.
    change (Z.to_nat 0) with O. cbn [seq map upd_nth]. f_equal. f_equal.
    rewrite <- !seq_shift, !map_map. apply map_ext. intros i. destruct (Z.ltb_spec (Z.of_nat (S i)) 1); [lia|reflexivity].
  - apply unlanes_map; try lia. { rewrite Z.mul_comm. assumption. }
    intros j J. replace (ov (tsize t) a b) with (ov (tsize t * 1) a b) by (f_equal; lia).
    rewrite lane_ov by (rewrite ?Z.mul_1_r; (assumption || lia)).
    destruct (Z.ltb_spec j 1); [|reflexivity]. replace j with 0 by lia.
    unfold lane. rewrite Z.mul_0_r, Z.shiftr_0_r, trunc_small by assumption. reflexivity.
Qed.

(** A piece laid over a vector. If the piece covers all of it, the old value no longer matters. *)
Lemma fold_vec1_ok : forall n rs res p m et0, okw rs -> wf_piece n p -> p_size p <= rs -> v_ty (p_a p) <> TPtr ->
  tyok res -> v_ty res = TVec m et0 -> tsize (v_ty res) = rs ->
  exists v' m' et, fold_vec1 rs res p = Some v' /\ tyok v' /\ v_ty v' = TVec m' et /\ 0 < m' /\ okscalar et /\ tsize (v_ty v') = rs /\
    forall e z, env_ok e -> ovo (p_size p) (pv e res) (pv e (p_a p)) = Some z -> pv e v' = Some z.
Proof.
  intros n rs res p m et0 R (T1 & O1 & S1 & _) L NP T Y S. unfold fold_vec1.
  assert (BC : forall t, tsize t = rs -> is_ptr t = false -> exists v', mk_cast CBitCast t res = Some v').
  { intros t Q1 Q2. unfold mk_cast. destruct (ty_eqb (v_ty res) t) eqn:Q; [eauto|].
    unfold cast_fun. rewrite Q. rewrite S, Q1, Z.eqb_refl, Q2, Y. cbn. eauto. }
  destruct (v_ty (p_a p)) as [w| | | |vc et] eqn:YP; [|contradiction| | |].
  - (* integer *)
    destruct O1 as [O1 _]. assert (O1s : okscalar (TInt w)) by (exact O1 || exact I). pose proof (okscalar_okw _ O1s) as OWp. pose proof (okw_pos _ OWp) as WP. rewrite S1 in *.
    destruct (okw_dvd _ _ OWp R L) as [D1 D2].
    destruct (BC (TVec (rs / tsize (TInt w)) (TInt w)) ltac:(cbn [tsize] in *; lia) eq_refl) as [v1 M1]. rewrite M1.
    destruct (mk_bitcast _ _ _ _ (or_introl eq_refl) M1 T) as (T1' & Y1 & _ & PV1).
    destruct (ins_ok v1 (p_a p) (TInt w) _ T1' T1 Y1 YP D2 WP) as [X1 X2].
    eexists _, _, _. split; [reflexivity|]. split; [exact X1|]. split; [reflexivity|]. split; [assumption|]. split; [assumption|].
    split; [cbn [v_ty tsize] in *; lia|]. intros e z E Q. rewrite (X2 e E), (PV1 e E). assumption.
  - (* float *)
    destruct O1 as [O1 _]. assert (O1s : okscalar TF32) by (exact O1 || exact I). pose proof (okscalar_okw _ O1s) as OWp. pose proof (okw_pos _ OWp) as WP. rewrite S1 in *.
    destruct (okw_dvd _ _ OWp R L) as [D1 D2].
    destruct (BC (TVec (rs / tsize TF32) TF32) ltac:(cbn [tsize] in *; lia) eq_refl) as [v1 M1]. rewrite M1.
    destruct (mk_bitcast _ _ _ _ (or_introl eq_refl) M1 T) as (T1' & Y1 & _ & PV1).
    destruct (ins_ok v1 (p_a p) TF32 _ T1' T1 Y1 YP D2 WP) as [X1 X2].
    eexists _, _, _. split; [reflexivity|]. split; [exact X1|]. split; [reflexivity|]. split; [assumption|]. split; [assumption|].
    split; [cbn [v_ty tsize] in *; lia|]. intros e z E Q. rewrite (X2 e E), (PV1 e E). assumption.
  - (* double *)
    destruct O1 as [O1 _]. assert (O1s : okscalar TF64) by (exact O1 || exact I). pose proof (okscalar_okw _ O1s) as OWp. pose proof (okw_pos _ OWp) as WP. rewrite S1 in *.
    destruct (okw_dvd _ _ OWp R L) as [D1 D2].
    destruct (BC (TVec (rs / tsize TF64) TF64) ltac:(cbn [tsize] in *; lia) eq_refl) as [v1 M1]. rewrite M1.
    destruct (mk_bitcast _ _ _ _ (or_introl eq_refl) M1 T) as (T1' & Y1 & _ & PV1).
    destruct (ins_ok v1 (p_a p) TF64 _ T1' T1 Y1 YP D2 WP) as [X1 X2].
    eexists _, _, _. split; [reflexivity|]. split; [exact X1|]. split; [reflexivity|]. split; [assumption|]. split; [assumption|].
    split; [cbn [v_ty tsize] in *; lia|]. intros e z E Q. rewrite (X2 e E), (PV1 e E). assumption.
  - (* vector *)
    destruct O1 as [(_ & VC & OE & OW) _]. cbn [tsize] in OW, S1.
    pose proof (okscalar_okw _ OE) as OWe. pose proof (okw_pos _ OWe) as EP.
    assert (Le : tsize et <= rs) by nia.
    destruct (okw_dvd _ _ OWe R Le) as [D1 D2]. set (rc := rs / tsize et) in *.
    assert (VR : vc <= rc) by nia.
    destruct (BC (TVec rc et) ltac:(cbn [tsize]; lia) eq_refl) as [v1 M1]. rewrite M1.
    destruct (mk_bitcast _ _ _ _ (or_introl eq_refl) M1 T) as (T1' & Y1 & _ & PV1).
    destruct (ext_ok (p_a p) vc et rc T1 YP EP ltac:(lia)) as [TE PE].
    set (ext := Val _ _) in TE, PE. set (v' := Val (TVec rc et) _). exists v', rc, et.
    change (tyok ext) in TE.
    set (msk := map (fun j => j + (if j <? vc then 0 else rc)) (seqZ rc)) in *.
    assert (LM : Z.of_nat (length msk) = rc) by (subst msk; rewrite map_length, seqZ_length; lia).
    assert (FM : Forall (fun i => 0 <= i < 2 * rc) msk).
    { apply Forall_forall. intros i I. apply in_map_iff in I. destruct I as (j & <- & J). apply in_seqZ in J.
      destruct (Z.ltb_spec j vc); lia. }
    assert (X : tyok v' /\ forall e, env_ok e -> pv e v' =
              match pv e v1, pv e (p_a p) with
              | Some a, Some b => Some (ov (p_size p) a b)
              | None, Some b => if existsb (fun i => rc <=? i) msk then None else Some b
              | _, None => None
              end).
    { apply mk_tyok. intros e E. subst v'. cbn [v_e v_ty]. unfold vev. cbn [eval].
      destruct (TE e E) as (x2 & EX2 & TX2 & W2). subst ext. cbn [v_e v_ty] in EX2, TX2. unfold vev in EX2. cbn [eval] in EX2.
      destruct (T1' e E) as (x1 & EX1 & TX1 & W1). rewrite Y1 in TX1. unfold vev in EX1.
      rewrite <- (PE e E). unfold pv, vev. cbn [v_e eval]. rewrite EX2, EX1. cbn [bind sem2].
      pose proof (shuf_ok rc et msk x2 x1 TX2 TX1 FM) as S2. rewrite LM in S2.
      destruct x2 as [t2 b|t2]; cbn in TX2; subst t2.
      - assert (IB : inr (tsize et * vc) b).
        { assert (PB : pv e (p_a p) = Some b).
          { rewrite <- (PE e E). unfold pv, vev. cbn [v_e eval]. rewrite EX2. reflexivity. }
          destruct (pv_some _ _ _ E T1 PB) as [_ IB]. rewrite YP in IB. cbn [tsize] in IB. rewrite Z.mul_comm. assumption. }
        destruct x1 as [t1 a|t1]; cbn in TX1; subst t1.
        + rewrite S2. cbn [wf_rv tsize] in W1, W2.
          assert (IO : inr (rc * tsize et) (ov (p_size p) a b)).
          { apply ov_inr; [nia|assumption|]. rewrite S1, Z.mul_comm. assumption. }
          split; [|assumption]. f_equal. f_equal. subst msk. rewrite map_map.
          apply unlanes_map; try lia. { rewrite Z.mul_comm. assumption. }
          intros j J. rewrite S1, (Z.mul_comm vc), lane_ov by (assumption || lia).
          destruct (Z.ltb_spec j vc).
          * destruct (Z.ltb_spec (j + 0) rc); [|lia]. f_equal; lia.
          * destruct (Z.ltb_spec (j + rc) rc); [lia|]. f_equal; lia.
        + destruct (existsb (fun i => rc <=? i) msk) eqn:EB; rewrite S2; [reflexivity|].
          cbn [wf_rv tsize] in W2. split; [|assumption]. f_equal. f_equal. subst msk. rewrite map_map.
          apply unlanes_map; try lia. { rewrite Z.mul_comm. assumption. }
          intros j J. destruct (Z.ltb_spec j vc); [f_equal; lia|]. exfalso.
          assert (existsb (fun i => rc <=? i) (map (fun j => j + (if j <? vc then 0 else rc)) (seqZ rc)) = true); [|congruence].
          apply existsb_exists. exists (j + rc). split; [|lia]. apply in_map_iff. exists j. split; [|apply in_seqZ; lia].
          destruct (Z.ltb_spec j vc); lia.
      - assert (EB : existsb (fun i => i <? rc) msk = true).
        { apply existsb_exists. exists 0. split; [|lia]. apply in_map_iff. exists 0. split; [|apply in_seqZ; lia].
          destruct (Z.ltb_spec 0 vc); lia. }
        rewrite (S2 EB). destruct x1; reflexivity. }
    destruct X as [X1 X2]. cbn [v_ty tsize]. split; [reflexivity|]. split; [assumption|].
    split; [reflexivity|]. split; [lia|]. split; [assumption|]. split; [change (rc * tsize et = rs); lia|].
    intros e z E Q. rewrite (X2 e E), (PV1 e E). unfold ovo, omap2 in Q.
    destruct (pv e res), (pv e (p_a p)); congruence.
Qed.

Lemma foldv_none : forall e vs, foldv e None vs = None.
Proof. induction vs as [|p vs IH]; [reflexivity|]. cbn [foldv]. destruct (p_dirty p); apply IH. Qed.

Lemma fold_vec_ok : forall n rs vs res m et0, okw rs -> Forall (wf_piece n) vs ->
  Forall (fun p => p_dirty p = true -> p_size p <= rs /\ v_ty (p_a p) <> TPtr) vs ->
  tyok res -> v_ty res = TVec m et0 -> 0 < m -> okscalar et0 -> tsize (v_ty res) = rs ->
  exists v' m' et, fold_vec rs res vs = Some v' /\ tyok v' /\ v_ty v' = TVec m' et /\ 0 < m' /\ okscalar et /\ tsize (v_ty v') = rs /\
    forall e z, env_ok e -> foldv e (pv e res) vs = Some z -> pv e v' = Some z.
Proof.
  induction vs as [|p vs IH]; intros res m et0 R F1 F2 T Y M O S.
  - exists res, m, et0. cbn. auto 8.
  - pose proof (Forall_inv F1) as P1. pose proof (Forall_inv_tail F1) as F1'.
    pose proof (Forall_inv F2) as P2. pose proof (Forall_inv_tail F2) as F2'. cbn [fold_vec foldv].
    destruct (p_dirty p) eqn:D; [|eapply IH; eauto].
    destruct (P2 D) as [L1 NP].
    destruct (fold_vec1_ok n _ res p m et0 R P1 L1 NP T Y S) as (v1 & m1 & et1 & M1 & T1 & Y1 & Q1 & O1 & S1 & PV1).
    rewrite M1.
    destruct (IH v1 m1 et1 R F1' F2' T1 Y1 Q1 O1 S1) as (v' & m' & et' & M' & T' & Y' & Q' & O' & S' & PV').
    exists v', m', et'. repeat (split; [assumption|]). intros e z E X.
    apply PV'; [assumption|]. destruct (ovo (p_size p) (pv e res) (pv e (p_a p))) as [y|] eqn:OV.
    + rewrite (PV1 e y E OV). assumption.
    + rewrite foldv_none in X. discriminate.
Qed.

Lemma vec_extend_ok : forall fs v m et, tyok v -> v_ty v = TVec m et -> 0 < m -> okscalar et ->
  okw fs -> tsize (v_ty v) <= fs ->
  exists v' m', vec_extend fs v = Some v' /\ tyok v' /\ v_ty v' = TVec m' et /\ 0 < m' /\ tsize (v_ty v') = fs /\
    forall e, env_ok e -> pv e v' = pv e v.
Proof.
  intros fs v m et T Y M O F L. unfold vec_extend. rewrite Y in *. cbn [tsize] in *.
  pose proof (okscalar_okw _ O) as OE. pose proof (okw_pos _ OE).
  destruct (Z.ltb_spec (m * tsize et) fs) as [LT|GE].
  - destruct (okw_dvd _ _ OE F ltac:(nia)) as [D1 D2].
    destruct (ext_ok v m et (fs / tsize et) T Y ltac:(lia) ltac:(nia)) as [X1 X2].
    eexists _, _. split; [reflexivity|]. split; [exact X1|]. split; [reflexivity|]. split; [assumption|].
    split; [cbn [v_ty tsize]; lia|]. exact X2.
  - exists v, m. rewrite Y. cbn [tsize]. repeat (split; [first [reflexivity|assumption|lia]|]). reflexivity.
Qed.

(** ** Piece lists *)
(** Pieces after [q]: sorted by size, and a clean piece repeats the low bits of its predecessor. *)
Fixpoint chain (n : nk) (q : piece) (vs : list piece) : Prop :=
  match vs with
  | [] => True
  | p :: vs' => wf_piece n p /\ p_size p <= p_size q /\ p_size p < n /\
                (p_dirty p = false -> forall e x, env_ok e -> pv e (p_a q) = Some x -> pv e (p_a p) = Some (trunc (p_size p) x)) /\
                chain n p vs'
  end.
Definition wf_vals (n : nk) (vs : list piece) : Prop :=
  match vs with
  | [] => True
  | q :: vs' => wf_piece n q /\ (p_dirty q = false -> p_size q = n) /\ chain n q vs'
  end.

(** Overlaying all pieces in order. *)
Fixpoint over (e : env) (o : option Z) (vs : list piece) : option Z :=
  match vs with
  | [] => o
  | p :: vs' => over e (ovo (p_size p) o (pv e (p_a p))) vs'
  end.
(** Meaning of a piece list over [base]. A first piece of native size hides the base. *)
Definition vden (n : Z) (e : env) (base : option Z) (vs : list piece) : option Z :=
  match vs with
  | [] => base
  | p :: vs' => over e (if n <=? p_size p then pv e (p_a p) else ovo (p_size p) base (pv e (p_a p))) vs'
  end.

Lemma over_none : forall e vs, over e None vs = None.
Proof. induction vs as [|p vs IH]; [reflexivity|]. cbn [over]. apply IH. Qed.
Lemma over_app : forall e l1 l2 o, over e o (l1 ++ l2) = over e (over e o l1) l2.
Proof. induction l1; intros; [reflexivity|]. cbn [over app]. apply IHl1. Qed.

Lemma piece_inr : forall n p e x, wf_piece n p -> env_ok e -> pv e (p_a p) = Some x -> inr (p_size p) x.
Proof. intros n p e x (T & _ & S & _) E P. destruct (pv_some _ _ _ E T P) as [_ I]. rewrite S. assumption. Qed.
Lemma piece_pos : forall n p, wf_piece n p -> 0 < p_size p.
Proof. intros n p (T & O & S & _). rewrite S. eapply okw_pos, okty_okw, O. Qed.

(** The low bits of [o] are the piece [q]. *)
Definition low (e : env) (o : option Z) (q : piece) : Prop :=
  forall z, o = Some z -> pv e (p_a q) = Some (trunc (p_size q) z).

Lemma low_step : forall n e o p, wf_piece n p -> env_ok e -> low e (ovo (p_size p) o (pv e (p_a p))) p.
Proof.
  intros n e o p P E z Q. unfold ovo, omap2 in Q. destruct o as [a|]; [|discriminate].
  destruct (pv e (p_a p)) as [x|] eqn:PX; [|discriminate]. injection Q as <-.
  pose proof (piece_inr _ _ _ _ P E PX). pose proof (piece_pos _ _ P).
  rewrite trunc_ov, trunc_small by (assumption || lia). reflexivity.
Qed.
Lemma low_clean : forall n e o q p vs, chain n q (p :: vs) -> env_ok e -> low e o q -> p_dirty p = false ->
  forall z, o = Some z -> ovo (p_size p) o (pv e (p_a p)) = Some z.
Proof.
  intros n e o q p vs (P & L & _ & C & _) E LO D z ->. pose proof (piece_pos _ _ P).
  rewrite (C D e _ E (LO z eq_refl)). rewrite trunc_trunc_le by lia. cbn [ovo omap2]. rewrite ov_same by lia. reflexivity.
Qed.

Lemma over_foldv : forall n e vs q o z, chain n q vs -> env_ok e -> low e o q -> over e o vs = Some z -> foldv e o vs = Some z.
Proof.
  induction vs as [|p vs IH]; intros q o z C E LO OV; [assumption|]. cbn [over foldv] in *.
  pose proof C as C0. destruct C as (P & L & _ & _ & C).
  destruct (p_dirty p) eqn:D.
  - apply (IH p _ z C E); [|assumption]. apply (low_step n); assumption.
  - destruct o as [a|]; [|cbn [ovo omap2] in OV; rewrite over_none in OV; discriminate].
    pose proof (low_clean _ _ _ _ _ _ C0 E LO D a eq_refl) as S. rewrite S in OV.
    apply (IH p _ z C E); [|assumption]. rewrite <- S. apply (low_step n); assumption.
Qed.
(** Clean pieces change nothing. *)
Lemma over_clean : forall n e vs q z, chain n q vs -> env_ok e -> low e (Some z) q ->
  Forall (fun p => p_dirty p = false) vs -> over e (Some z) vs = Some z.
Proof.
  induction vs as [|p vs IH]; intros q z C E LO F; [reflexivity|]. cbn [over].
  inversion F as [|? ? D F']; subst.
  pose proof (low_clean _ _ _ _ _ _ C E LO D z eq_refl) as S. rewrite S.
  destruct C as (P & _ & _ & _ & C). apply (IH p); try assumption. rewrite <- S. apply (low_step n); assumption.
Qed.
(** A piece followed by clean ones holds the low bits of the register. *)
Lemma over_low : forall n e vs q o z, chain n q vs -> env_ok e -> low e o q -> over e o vs = Some z ->
  forall i p, nth_error (q :: vs) i = Some p -> Forall (fun p => p_dirty p = false) (skipn i vs) ->
  pv e (p_a p) = Some (trunc (p_size p) z).
Proof.
  induction vs as [|q' vs IH]; intros q o z C E LO OV i p N F.
  - destruct i; [|destruct i; discriminate]. injection N as <-. apply LO. assumption.
  - destruct i.
    + injection N as <-. cbn [skipn] in F. destruct o as [a|].
      * assert (over e (Some a) (q' :: vs) = Some a) by (eapply over_clean; eassumption).
        apply LO. congruence.
      * cbn [over] in OV. cbn [ovo omap2] in OV. rewrite over_none in OV. discriminate.
    + cbn [nth_error] in N. cbn [skipn] in F. destruct C as (P & _ & _ & _ & C). cbn [over] in OV.
      exact (IH q' _ z C E (low_step n _ _ _ P E) OV i p N F).
Qed.

Lemma ov_nest : forall s t b x y, 0 <= t <= s -> inr s x -> inr t y -> ov t (ov s b x) y = ov s b (ov t x y).
Proof.
  intros s t b x y T X Y. pose proof (ov_inr s t x y T X Y). apply Z.bits_inj'. intros i Hi.
  rewrite !testbit_ov by (assumption || lia).
  destruct (Z.ltb_spec i t), (Z.ltb_spec i s); try reflexivity; lia.
Qed.
Lemma over_nest : forall n e vs q s b x, chain n q vs -> env_ok e -> p_size q <= s -> inr s x ->
  over e (Some (ov s b x)) vs = omap (ov s b) (over e (Some x) vs).
Proof.
  induction vs as [|p vs IH]; intros q s b x C E L I; [reflexivity|]. cbn [over].
  destruct C as (P & L' & _ & _ & C). pose proof (piece_pos _ _ P).
  destruct (pv e (p_a p)) as [y|] eqn:PY; cbn [ovo omap2].
  - pose proof (piece_inr _ _ _ _ P E PY). rewrite ov_nest by (assumption || lia). apply (IH p); try assumption; try lia.
    apply ov_inr; (assumption || lia).
  - rewrite !over_none. reflexivity.
Qed.

Lemma chain_Forall : forall n vs q, chain n q vs -> Forall (wf_piece n) vs /\ Forall (fun p => p_size p <= p_size q) vs /\
  Forall (fun p => p_size p < n) vs.
Proof.
  induction vs as [|p vs IH]; intros q C; [repeat split; constructor|]. destruct C as (P & L & LN & _ & C).
  destruct (IH p C) as (F1 & F2 & F3). repeat split; constructor; try assumption.
  eapply Forall_impl; [|exact F2]. intros a B. cbn in B. lia.
Qed.
Lemma not_ptr : forall n p, wf_piece n p -> p_size p < n -> v_ty (p_a p) <> TPtr.
Proof. intros n p (T & O & S & _) L Q. rewrite Q in *. destruct O as [O _]. cbn in O, S. lia. Qed.

(** The value computed by the fold. *)
Lemma fold_values_ok : forall n p0 rest full, wf_vals n (p0 :: rest) -> okw full -> full <= n ->
  exists res fs, fold_values (p0 :: rest) full = Some [new_piece res fs] /\ full <= fs /\ p_size p0 <= fs /\
    wf_piece n (new_piece res fs) /\ (fs = full \/ fs = p_size p0) /\
    forall e z, env_ok e -> over e (pv e (p_a p0)) rest = Some z -> pv e res = Some z.
Proof.
  intros n p0 rest full (P0 & _ & C) OF LF.
  pose proof P0 as (T0 & O0 & S0 & _). pose proof (okty_okw _ _ O0) as OW0. rewrite <- S0 in OW0.
  destruct (chain_Forall _ _ _ C) as (F1 & F2 & F3).
  unfold fold_values. set (fs := if full <? p_size p0 then p_size p0 else full).
  assert (OFS : okw fs) by (subst fs; destruct (full <? p_size p0); assumption).
  assert (LFS : full <= fs /\ p_size p0 <= fs /\ (fs = full \/ fs = p_size p0)).
  { subst fs. destruct (Z.ltb_spec full (p_size p0)); lia. }
  assert (LN : fs <= n). { destruct O0 as [_ O0]. subst fs. destruct (Z.ltb_spec full (p_size p0)); lia. }
  assert (FD : forall w, p_size p0 <= w -> Forall (fun p => p_dirty p = true -> p_size p <= w /\ v_ty (p_a p) <> TPtr) rest).
  { intros w W. rewrite Forall_forall in *. intros p I _. specialize (F1 p I). specialize (F2 p I). specialize (F3 p I).
    cbn in F2, F3. split; [lia|]. apply (not_ptr n); assumption. }
  assert (FV : forall e z, env_ok e -> over e (pv e (p_a p0)) rest = Some z -> foldv e (pv e (p_a p0)) rest = Some z).
  { intros e z E OV. apply (over_foldv n e rest p0); try assumption. intros x X.
    pose proof (piece_inr _ _ _ _ P0 E X). rewrite trunc_small by assumption. assumption. }
  pose proof (okw_pos _ OFS) as FP. pose proof (okw_pos _ OW0) as SP.
  assert (INT : forall r0, v_ty r0 = TInt (p_size p0) -> tyok r0 -> (forall e, env_ok e -> pv e r0 = pv e (p_a p0)) ->
    exists res, (opt res <- (if is_int (v_ty r0) then
                  opt r1 <- mk_cast CZExtOrTrunc (TInt fs) r0; fold_int fs r1 rest
                else if is_vec (v_ty r0) then
                  opt r1 <- fold_vec (tsize (v_ty r0)) r0 rest; vec_extend fs r1
                else None); Some [new_piece res fs]) = Some [new_piece res fs] /\
      tyok res /\ okty n (v_ty res) /\ tsize (v_ty res) = fs /\
      forall e z, env_ok e -> over e (pv e (p_a p0)) rest = Some z -> pv e res = Some z).
  { intros r0 Y R PV. rewrite Y. cbn [is_int].
    destruct (mk_zext CZExtOrTrunc (p_size p0) fs r0 (or_intror eq_refl) Y ltac:(lia) R) as (r1 & M1 & T1 & Y1 & PV1). rewrite M1.
    destruct (fold_int_ok n fs rest r1 FP F1 (FD fs ltac:(lia)) Y1 T1) as (res & M2 & T2 & Y2 & PV2). rewrite M2.
    exists res. split; [reflexivity|]. split; [assumption|]. rewrite Y2. split; [split; [exact OFS|exact LN]|]. split; [reflexivity|].
    intros e z E OV. rewrite (PV2 e E), (PV1 e E), (PV e E). apply FV; assumption. }
  assert (WRAP : forall x, (exists res, x = Some [new_piece res fs] /\
      tyok res /\ okty n (v_ty res) /\ tsize (v_ty res) = fs /\
      forall e z, env_ok e -> over e (pv e (p_a p0)) rest = Some z -> pv e res = Some z) ->
      exists res fs, x = Some [new_piece res fs] /\ full <= fs /\ p_size p0 <= fs /\
        wf_piece n (new_piece res fs) /\ (fs = full \/ fs = p_size p0) /\
        forall e z, env_ok e -> over e (pv e (p_a p0)) rest = Some z -> pv e res = Some z).
  { intros x (res & X1 & X2 & X3 & X4 & X5). exists res, fs. split; [assumption|]. split; [lia|]. split; [lia|].
    split; [|split; [lia|assumption]]. unfold wf_piece, new_piece. cbn [p_a p_b p_size]. repeat (split; [first [assumption|symmetry; assumption]|]).
    discriminate. }
  apply WRAP.
  destruct (v_ty (p_a p0)) as [w| | | |m et] eqn:YP.
  - cbn [is_ptr is_fp orb]. apply INT; [rewrite YP, S0; reflexivity|assumption|reflexivity].
  - cbn [is_ptr is_fp orb]. cbn [tsize] in S0.
    destruct (mk_cast CBitOrPtr (TInt (p_size p0)) (p_a p0)) as [r0|] eqn:M0.
    + destruct (mk_bitcast _ _ _ _ (or_intror eq_refl) M0 T0) as (TR & YR & _ & PVR). apply INT; assumption.
    + unfold mk_cast in M0. rewrite YP, S0 in M0. discriminate.
  - cbn [is_ptr is_fp orb]. cbn [tsize] in S0.
    destruct (mk_cast CBitOrPtr (TInt (p_size p0)) (p_a p0)) as [r0|] eqn:M0.
    + destruct (mk_bitcast _ _ _ _ (or_intror eq_refl) M0 T0) as (TR & YR & _ & PVR). apply INT; assumption.
    + unfold mk_cast in M0. rewrite YP, S0 in M0. discriminate.
  - cbn [is_ptr is_fp orb]. cbn [tsize] in S0.
    destruct (mk_cast CBitOrPtr (TInt (p_size p0)) (p_a p0)) as [r0|] eqn:M0.
    + destruct (mk_bitcast _ _ _ _ (or_intror eq_refl) M0 T0) as (TR & YR & _ & PVR). apply INT; assumption.
    + unfold mk_cast in M0. rewrite YP, S0 in M0. discriminate.
  - cbn [is_ptr is_fp orb]. rewrite YP. cbn [is_int is_vec]. destruct O0 as [(NB & M0 & OE & _) _].
    assert (TS : tsize (v_ty (p_a p0)) = p_size p0) by (rewrite YP; symmetry; assumption).
    destruct (fold_vec_ok n (p_size p0) rest (p_a p0) m et OW0 F1 (FD _ (Z.le_refl _)) T0 YP M0 OE TS)
      as (r1 & m1 & et1 & M1 & T1 & Y1 & Q1 & O1 & S1 & PV1).
    rewrite <- S0, M1.
    destruct (vec_extend_ok fs r1 m1 et1 T1 Y1 Q1 O1 OFS ltac:(lia)) as (r2 & m2 & M2 & T2 & Y2 & Q2 & S2 & PV2). rewrite M2.
    exists r2. split; [reflexivity|]. split; [assumption|].
    split; [split; [rewrite Y2; split; [assumption|]; split; [assumption|]; split; [assumption|]; rewrite <- Y2, S2; assumption|lia]|]. split; [assumption|].
    intros e z E OV. rewrite (PV2 e E). apply PV1; [assumption|]. apply FV; assumption.
Qed.

Lemma fold_values_den : forall n p0 rest full, wf_vals n (p0 :: rest) -> okw full -> full <= n ->
  exists res fs, fold_values (p0 :: rest) full = Some [new_piece res fs] /\ full <= fs /\ p_size p0 <= fs /\
    wf_vals n [new_piece res fs] /\
    forall e base z, env_ok e -> (p_size p0 < full -> base = Some 0) ->
      vden n e base (p0 :: rest) = Some z -> vden n e base [new_piece res fs] = Some z.
Proof.
  intros n p0 rest full Wf OF LF. destruct (fold_values_ok n p0 rest full Wf OF LF) as (res & fs & M & L1 & L2 & WP & FS & PV).
  exists res, fs. split; [assumption|]. split; [assumption|]. split; [assumption|]. split.
  { cbn [wf_vals chain]. split; [assumption|]. split; [discriminate|exact I]. }
  intros e base z E B D. cbn [vden over new_piece p_a p_size] in *.
  destruct Wf as (P0 & _ & C).
  assert (LN : p_size p0 <= n) by (destruct P0 as (_ & [_ O] & S & _); lia).
  assert (LN' : fs <= n) by lia.
  destruct (Z.leb_spec n (p_size p0)) as [GE|LT].
  - destruct (Z.leb_spec n fs); [|lia]. apply PV; assumption.
  - destruct base as [b|]; [|cbn [ovo omap2] in D; rewrite over_none in D; discriminate].
    destruct (pv e (p_a p0)) as [x|] eqn:PX; [|cbn [ovo omap2] in D; rewrite over_none in D; discriminate].
    cbn [ovo omap2] in D. rewrite (over_nest n e rest p0) in D; try assumption; try lia.
    2: { eapply piece_inr; eassumption. }
    destruct (over e (Some x) rest) as [y|] eqn:OV; [|discriminate]. cbn [omap] in D. injection D as <-.
    rewrite (PV e y E) by (rewrite PX; assumption).
    destruct (Z.ltb_spec (p_size p0) full) as [LF'|GF].
    + specialize (B LF'). injection B as ->. rewrite ov_zero. destruct (n <=? fs); [reflexivity|]. cbn [ovo omap2]. rewrite ov_zero. reflexivity.
    + assert (fs = p_size p0) by lia. subst fs. destruct (Z.leb_spec n (p_size p0)); [lia|]. reflexivity.
Qed.

(** The test that decides whether a fold is needed. *)
Lemma fold_idx_ok : forall n vs q full i start r, chain n q vs -> (start < i)%nat ->
  fold_idx vs full i start = Some r ->
  (r = start /\ Forall (fun p => p_size p < full /\ p_dirty p = false) vs) \/
  exists k, r = (i + k)%nat /\ (exists p, nth_error vs k = Some p /\ full <= p_size p) /\
            Forall (fun p => p_size p < full /\ p_dirty p = false) (skipn (S k) vs).
Proof.
  induction vs as [|p vs IH]; intros q full i start r C L F; cbn [fold_idx] in F.
  - injection F as <-. left. split; [reflexivity|constructor].
  - destruct C as (P & Lq & _ & _ & C). destruct (Z.leb_spec full (p_size p)) as [GE|LT].
    + destruct (IH p full (S i) i r C ltac:(lia) F) as [[-> X]|(k & -> & X1 & X2)]; right.
      * exists O. split; [lia|]. split; [exists p; split; [reflexivity|assumption]|assumption].
      * exists (S k). split; [lia|]. split; assumption.
    + destruct (p_dirty p) eqn:D; [discriminate|].
      destruct (IH p full (S i) start r C ltac:(lia) F) as [[-> X]|(k & -> & X1 & X2)].
      * left. split; [reflexivity|]. constructor; [split; assumption|assumption].
      * exfalso. destruct X1 as (p' & N & G). apply nth_error_In in N.
        destruct (chain_Forall _ _ _ C) as (_ & F2 & _). rewrite Forall_forall in F2. specialize (F2 p' N). cbn in F2. lia.
Qed.

(** ** Register files *)
Definition kd (r : areg) : nk := Nk (nsize r) (match r with VEC _ => false | _ => true end).
Lemma kd_okw : forall r, okw (kd r).
Proof.
  intros [i|i|i]; unfold okw, kd, native_size, native_facet; cbn [nz].
  - cbn. lia.
  - destruct (i =? 2); cbn; lia.
  - destruct A; cbn; lia.
Qed.

Definition uz_dirty (uz : bool) (vs : list piece) : Prop :=
  uz = true -> match vs with [] => True | p :: _ => p_dirty p = true end.
Definition wf_reg (k : nat) (r : areg) (g : regst) : Prop :=
  match g with
  | RVals uz vs => wf_vals (kd r) vs /\ uz_dirty uz vs
  | _ => exists v s, canon_value r g = Some (v, s) /\ wf_piece (kd r) (new_piece v s)
  end.
Definition wf_h (h : rfs) : Prop :=
  (forall k r, wf_reg k r (h_reg h k r)) /\ (forall k p, h_init h k = InitParent p -> (p < k)%nat).

(** Meaning of a register, given that of the same register when the block is entered. *)
Definition regden (k : nat) (r : areg) (e : env) (base : option Z) (g : regst) : option Z :=
  match g with
  | RVals uz vs => vden (kd r) e (if uz then Some 0 else base) vs
  | _ => match canon_value r g with
         | Some (v, s) => vden (kd r) e (Some 0) [new_piece v s]
         | None => None
         end
  end.
Definition phi_val (b : nat) (r : areg) : value := Val (facet_type (native_facet A r)) (ELeaf (APhi b r)).
Fixpoint denf (fuel : nat) (e : env) (h : rfs) (k : nat) (r : areg) : option Z :=
  match fuel with
  | O => None
  | S f => regden k r e (match h_init h k with
                         | InitNone => None
                         | InitParent p => denf f e h p r
                         | InitPhi b => pv e (phi_val b r)
                         end) (h_reg h k r)
  end.
Definition den (e : env) (h : rfs) (k : nat) (r : areg) : option Z := denf (S k) e h k r.
Definition base_of (e : env) (h : rfs) (k : nat) (r : areg) : option Z :=
  match h_init h k with
  | InitNone => None
  | InitParent p => den e h p r
  | InitPhi b => pv e (phi_val b r)
  end.

Definition init_ok (h : rfs) : Prop := forall k p, h_init h k = InitParent p -> (p < k)%nat.
Lemma denf_fuel : forall e h r, init_ok h -> forall f f' k, (k < f)%nat -> (k < f')%nat -> denf f e h k r = denf f' e h k r.
Proof.
  intros e h r W. induction f as [|f IH]; intros f' k L L'; [lia|]. destruct f' as [|f']; [lia|]. cbn [denf].
  f_equal. destruct (h_init h k) as [|p|b] eqn:I; try reflexivity. pose proof (W k p I). apply IH; lia.
Qed.
Lemma den_eq : forall e h k r, init_ok h -> den e h k r = regden k r e (base_of e h k r) (h_reg h k r).
Proof.
  intros e h k r W. unfold den, base_of. cbn [denf]. f_equal. destruct (h_init h k) as [|p|b] eqn:I; try reflexivity.
  pose proof (W k p I). apply denf_fuel; try assumption; lia.
Qed.

Definition ole (a b : option Z) : Prop := forall z, a = Some z -> b = Some z.
Lemma ole_refl : forall a, ole a a. Proof. unfold ole. auto. Qed.
Lemma ole_trans : forall a b c, ole a b -> ole b c -> ole a c. Proof. unfold ole. auto. Qed.
Lemma over_mono : forall e vs a b, ole a b -> ole (over e a vs) (over e b vs).
Proof.
  intros e vs a b L z OV. destruct a as [a|]; [|rewrite over_none in OV; discriminate]. rewrite (L a eq_refl). assumption.
Qed.
Lemma vden_mono : forall n e vs a b, ole a b -> ole (vden n e a vs) (vden n e b vs).
Proof.
  intros n e [|p vs] a b L; cbn [vden]; [assumption|]. destruct (n <=? p_size p); [apply ole_refl|].
  apply over_mono. intros z X. destruct a as [a|]; [|discriminate]. rewrite (L a eq_refl). assumption.
Qed.
Lemma regden_mono : forall k r e g a b, ole a b -> ole (regden k r e a g) (regden k r e b g).
Proof.
  intros k r e g a b L. destruct g; cbn [regden]; try apply ole_refl. destruct uz; [apply ole_refl|]. apply vden_mono. assumption.
Qed.

(** [h'] gives every register at least the meaning it has in [h]. *)
Definition refines (h h' : rfs) : Prop := forall e k r, env_ok e -> ole (den e h k r) (den e h' k r).
Lemma refines_refl : forall h, refines h h. Proof. intros h e k r E. apply ole_refl. Qed.
Lemma refines_trans : forall a b c, refines a b -> refines b c -> refines a c.
Proof. intros a b c X Y e k r E. eapply ole_trans; [apply X|apply Y]; assumption. Qed.

Lemma keq_dec : forall k r k' r', {k = k' /\ r = r'} + {Nat.eqb k k' && areg_eqb r r' = false}.
Proof.
  intros. destruct (Nat.eqb k k') eqn:K; [|right; reflexivity]. destruct (areg_eqb r r') eqn:R; [|right; reflexivity].
  left. apply Nat.eqb_eq in K. apply areg_eqb_eq in R. auto.
Qed.
Lemma keq_refl : forall k r, Nat.eqb k k && areg_eqb r r = true.
Proof. intros. rewrite Nat.eqb_refl, areg_eqb_refl. reflexivity. Qed.

(** Replacing one register by something at least as defined. *)
Lemma set_refines : forall h h' k r g, init_ok h -> h_init h' = h_init h ->
  (forall k' r', h_reg h' k' r' = if Nat.eqb k k' && areg_eqb r r' then g else h_reg h k' r') ->
  (forall e, env_ok e -> ole (regden k r e (base_of e h k r) (h_reg h k r)) (regden k r e (base_of e h k r) g)) ->
  refines h h'.
Proof.
  intros h h' k r g W I G R e k' r' E.
  assert (W' : init_ok h') by (intros a b X; rewrite I in X; exact (W a b X)).
  induction k' as [k' IH] using (well_founded_induction lt_wf).
  rewrite (den_eq e h k' r' W), (den_eq e h' k' r' W').
  assert (B : ole (base_of e h k' r') (base_of e h' k' r')).
  { unfold base_of. rewrite I. destruct (h_init h k') as [|p|b] eqn:Q; try apply ole_refl. apply IH. exact (W k' p Q). }
  rewrite G. destruct (keq_dec k r k' r') as [[-> ->]|N].
  - rewrite keq_refl. eapply ole_trans; [apply R; assumption|]. apply regden_mono. assumption.
  - rewrite N. apply regden_mono. assumption.
Qed.

(** A register that can be read. *)
Inductive avail (h : rfs) : nat -> areg -> Prop :=
| av_set : forall k r, (match h_reg h k r with RVals uz _ => uz = true | _ => True end) -> avail h k r
| av_nat : forall k r uz p vs, h_reg h k r = RVals uz (p :: vs) -> p_size p = kd r -> avail h k r
| av_phi : forall k r b, h_init h k = InitPhi b -> avail h k r
| av_par : forall k r p, h_init h k = InitParent p -> avail h p r -> avail h k r.
Definition av_le (h h' : rfs) : Prop := forall k r, avail h k r -> avail h' k r.

Definition av_reg (r : areg) (g : regst) : Prop :=
  match g with
  | RVals true _ => True
  | RVals false (p :: _) => p_size p = kd r
  | RVals false [] => False
  | _ => True
  end.
Lemma av_reg_avail : forall h k r, av_reg r (h_reg h k r) -> avail h k r.
Proof.
  intros h k r X. destruct (h_reg h k r) as [| |uz vs] eqn:G; try (apply av_set; rewrite G; exact I).
  destruct uz; [apply av_set; rewrite G; reflexivity|]. destruct vs as [|p vs]; [contradiction|]. eapply av_nat; eassumption.
Qed.
Lemma set_avail : forall h h' k r g, h_init h' = h_init h ->
  (forall k' r', h_reg h' k' r' = if Nat.eqb k k' && areg_eqb r r' then g else h_reg h k' r') ->
  (av_reg r (h_reg h k r) -> av_reg r g) -> av_le h h'.
Proof.
  intros h h' k r g I G R k' r' AV.
  assert (REG : forall k' r', av_reg r' (h_reg h k' r') -> avail h' k' r').
  { intros k0 r0 X. apply av_reg_avail. rewrite G. destruct (keq_dec k r k0 r0) as [[-> ->]|N].
    - rewrite keq_refl. auto.
    - rewrite N. assumption. }
  induction AV as [k' r' X|k' r' uz p vs X S|k' r' b X|k' r' p X _ IH].
  - apply REG. destruct (h_reg h k' r'); try exact Logic.I. subst. exact Logic.I.
  - apply REG. rewrite X. destruct uz; [exact Logic.I|]. assumption.
  - eapply av_phi. rewrite I. eassumption.
  - eapply av_par; [rewrite I; eassumption|assumption].
Qed.

(** What reads keep. *)
Record kept (h h' : rfs) : Prop := {
  kp_wf : wf_h h';
  kp_init : h_init h' = h_init h;
  kp_dirty : h_dirty h' = h_dirty h;
  kp_ref : refines h h';
  kp_av : av_le h h';
}.
Lemma kept_refl : forall h, wf_h h -> kept h h.
Proof. intros. split; auto using refines_refl. intros k r X. exact X. Qed.
Lemma kept_trans : forall a b c, kept a b -> kept b c -> kept a c.
Proof.
  intros a b c [A1 A2 A3 A4 A5] [B1 B2 B3 B4 B5]. split; [assumption|congruence|congruence|eapply refines_trans; eassumption|].
  intros k r X. auto.
Qed.
Lemma set_kept : forall h h' k r g, wf_h h -> wf_reg k r g -> h_init h' = h_init h -> h_dirty h' = h_dirty h ->
  (forall k' r', h_reg h' k' r' = if Nat.eqb k k' && areg_eqb r r' then g else h_reg h k' r') ->
  (forall e, env_ok e -> ole (regden k r e (base_of e h k r) (h_reg h k r)) (regden k r e (base_of e h k r) g)) ->
  (av_reg r (h_reg h k r) -> av_reg r g) -> kept h h'.
Proof.
  intros h h' k r g [W1 W2] WG I D G R V. split; try assumption.
  - split.
    + intros k' r'. rewrite G. destruct (keq_dec k r k' r') as [[<- <-]|N]; [rewrite keq_refl; assumption|rewrite N; apply W1].
    + rewrite I. assumption.
  - eapply set_refines; eassumption.
  - eapply set_avail; eassumption.
Qed.

Lemma wf_one : forall r p, wf_piece (kd r) p -> p_dirty p = true -> wf_vals (kd r) [p].
Proof. intros r p P D. cbn [wf_vals chain]. split; [assumption|]. split; [congruence|exact I]. Qed.

Lemma canonicalize_ok : forall h k r, wf_h h ->
  exists h' uz vs, canonicalize h k r = Some h' /\ kept h h' /\ h_reg h' k r = RVals uz vs /\
    (forall k' r', (k' <> k \/ r' <> r) -> h_reg h' k' r' = h_reg h k' r') /\
    match h_reg h k r with RVals uz' vs' => uz = uz' /\ vs = vs' | _ => uz = true end.
Proof.
  intros h k r W. pose proof (proj1 W k r) as WR. unfold canonicalize.
  assert (OTHER : forall h0 g, h_reg (set_reg h0 k r g) k r = g /\
            forall k' r', (k' <> k \/ r' <> r) -> h_reg (set_reg h0 k r g) k' r' = h_reg h0 k' r').
  { intros h0 g. split; [cbn; rewrite keq_refl; reflexivity|]. intros k' r' N. cbn.
    destruct (keq_dec k r k' r') as [[-> ->]|Q]; [tauto|rewrite Q; reflexivity]. }
  destruct (h_reg h k r) as [tr v1 v2 v3|u t|uz vs] eqn:G.
  - destruct WR as (v & s & CV & WP). rewrite CV.
    exists (set_reg h k r (RVals true [new_piece v s])), true, [new_piece v s].
    destruct (OTHER h (RVals true [new_piece v s])) as [O1 O2].
    split; [reflexivity|]. split; [|split; [exact O1|split; [exact O2|reflexivity]]].
    apply (set_kept _ _ k r (RVals true [new_piece v s])); try reflexivity; try assumption.
    + split; [apply wf_one; [assumption|reflexivity]|intros _; reflexivity].
    + intros e E. rewrite G. cbn [regden]. rewrite CV. apply ole_refl.
  - destruct WR as (v & s & CV & WP). cbn [canon_value] in CV. injection CV as <- <-.
    set (g := RVals true _). eexists _, _, _. destruct (OTHER (add_load h u r) g) as [O1 O2].
    split; [reflexivity|]. split; [|split; [exact O1|split; [exact O2|reflexivity]]].
    apply (set_kept _ _ k r g); try reflexivity; try assumption.
    + split; [apply wf_one; [assumption|reflexivity]|intros _; reflexivity].
    + intros e E. rewrite G. apply ole_refl.
  - exists h, uz, vs. split; [reflexivity|]. split; [apply kept_refl; assumption|]. auto.
Qed.

(** Entries of the parent copied in front of our own. *)
Lemma take_ge_split : forall n vs q s, chain n q vs -> s <= p_size q ->
  exists rest, vs = take_ge vs s ++ rest /\ chain n q (take_ge vs s) /\
    (forall hd tl, s = p_size hd -> p_dirty hd = true -> wf_piece n hd -> p_size hd < n -> chain n hd tl ->
       chain n q (take_ge vs s ++ hd :: tl)).
Proof.
  induction vs as [|p vs IH]; intros q s C L.
  - exists []. cbn. split; [reflexivity|]. split; [exact I|]. intros hd tl -> D P LN CT.
    repeat (split; [first [assumption|congruence]|]). assumption.
  - cbn [take_ge]. destruct C as (P & LQ & LN & CL & C). destruct (Z.ltb_spec (p_size p) s) as [LT|GE].
    + exists (p :: vs). cbn. split; [reflexivity|]. split; [exact I|]. intros hd tl -> D PH LH CT.
      repeat (split; [first [assumption|congruence]|]). assumption.
    + destruct (IH p s C GE) as (rest & E & C1 & C2). exists rest. split; [cbn; f_equal; assumption|].
      split; [cbn; auto|]. intros hd tl -> D PH LH CT. cbn [app chain]. auto 8.
Qed.

Definition got (h : rfs) (k : nat) (r : areg) (full : Z) (i : nat) : Prop :=
  exists uz vs p, h_reg h k r = RVals uz vs /\ nth_error vs i = Some p /\ full <= p_size p /\
    Forall (fun p => p_size p < full /\ p_dirty p = false) (skipn (S i) vs).

(** After folding to native size, the first piece is the whole register. *)
Lemma got_native : forall h k r i, wf_h h -> got h k r (kd r) i ->
  exists uz q vs, h_reg h k r = RVals uz (q :: vs) /\ i = O /\ p_size q = kd r /\ Forall (fun p => p_dirty p = false) vs.
Proof.
  intros h k r i [W _] (uz & vs & p & G & N & L & F). specialize (W k r). rewrite G in W. destruct W as [W _].
  destruct vs as [|q vs]; [destruct i; discriminate|]. exists uz, q, vs. destruct W as (P & _ & C).
  assert (i = O).
  { destruct i; [reflexivity|]. exfalso. cbn [nth_error] in N. apply nth_error_In in N.
    destruct (chain_Forall _ _ _ C) as (_ & _ & F3). rewrite Forall_forall in F3. specialize (F3 p N). cbn beta in F3. lia. }
  subst i. injection N as <-. cbn [skipn] in F. split; [assumption|]. split; [reflexivity|]. split.
  - destruct P as (_ & [_ O] & S & _). lia.
  - eapply Forall_impl; [|exact F]. intros a [_ X]. exact X.
Qed.

Lemma get_fold_ok : forall fuel h k r full, wf_h h -> avail h k r -> (k < fuel)%nat -> okw full -> full <= kd r ->
  exists h' i, get_fold A fuel h k r full = Some (h', i) /\ kept h h' /\ got h' k r full i /\
    (forall k' r', (r' <> r \/ (k < k')%nat) -> h_reg h' k' r' = h_reg h k' r').
Proof.
  induction fuel as [|fuel IH]; intros h k r full W AV FU OF LF; [lia|]. cbn [get_fold].
  destruct (canonicalize_ok h k r W) as (h1 & uz & vs & CE & K1 & G1 & U1 & _). rewrite CE, G1.
  pose proof (kp_wf _ _ K1) as W1. pose proof (kp_av _ _ K1 _ _ AV) as AV1.
  pose proof (proj1 W1 k r) as WR. rewrite G1 in WR. destruct WR as [WV UD].
  assert (SETR : forall h0 g, h_reg (set_reg h0 k r g) k r = g /\
            forall k' r', (r' <> r \/ (k < k')%nat) -> h_reg (set_reg h0 k r g) k' r' = h_reg h0 k' r').
  { intros h0 g. split; [cbn; rewrite keq_refl; reflexivity|]. intros k' r' N. cbn.
    destruct (keq_dec k r k' r') as [[-> ->]|Q]; [destruct N as [N|N]; [contradiction|lia]|rewrite Q; reflexivity]. }
  (* first phase: the upper part *)
  match goal with |- context [match ?X with Some h => _ | None => None end] => set (PH := X) end.
  assert (P1 : exists h2 uz2 vs2, PH = Some h2 /\ kept h1 h2 /\ h_reg h2 k r = RVals uz2 vs2 /\
      (uz2 = true \/ exists p vs', vs2 = p :: vs' /\ full <= p_size p) /\
      (forall k' r', (r' <> r \/ (k < k')%nat) -> h_reg h2 k' r' = h_reg h1 k' r')).
  { subst PH. destruct (negb uz && (match vs with [] => true | p :: _ => p_size p <? full end)) eqn:NEED.
    2: { exists h1, uz, vs. split; [reflexivity|]. split; [apply kept_refl; assumption|]. split; [assumption|]. split; [|auto].
         destruct uz; [left; reflexivity|]. right. destruct vs as [|p vs]; [discriminate|]. exists p, vs. split; [reflexivity|].
         cbn in NEED. lia. }
    assert (uz = false) by (destruct uz; [discriminate|reflexivity]). subst uz. cbn [negb andb] in NEED.
    assert (HD : match vs with [] => True | p :: _ => p_size p < kd r /\ p_dirty p = true end).
    { destruct vs as [|p vs]; [exact I|]. split; [lia|]. destruct (p_dirty p) eqn:D; [reflexivity|].
      destruct WV as (_ & X & _). specialize (X D). lia. }
    destruct (h_init h1 k) as [|p|b] eqn:INIT.
    - exfalso. inversion AV1 as [? ? X|? ? uz' p vs' X S|? ? b X|? ? p X]; subst.
      + rewrite G1 in X. discriminate.
      + rewrite G1 in X. injection X as <- ->. lia.
      + congruence.
      + congruence.
    - (* parent *)
      assert (PK : (p < k)%nat) by (exact (proj2 W1 k p INIT)).
      assert (AVP : avail h1 p r).
      { inversion AV1 as [? ? X|? ? uz' p' vs' X S|? ? b X|? ? p' X Y]; subst.
        - rewrite G1 in X. discriminate.
        - rewrite G1 in X. injection X as <- ->. lia.
        - congruence.
        - rewrite INIT in X. injection X as <-. assumption. }
      destruct (IH h1 p r (nsize r) W1 AVP ltac:(lia) (kd_okw r) (Z.le_refl _)) as (h2 & i & GF & K2 & GT & FR).
      rewrite GF. pose proof (kp_wf _ _ K2) as W2.
      destruct (got_native h2 p r i W2 GT) as (uz' & q & vs' & G2 & -> & SQ & CL). rewrite G2.
      pose proof (proj1 W2 p r) as WP. rewrite G2 in WP. destruct WP as [(PQ & CQ & CH) UDQ].
      set (nvs := match vs with [] => _ | _ => _ end).
      eexists _, _, _. split; [reflexivity|].
      assert (GK : h_reg h2 k r = RVals false vs) by (rewrite FR by (right; lia); assumption).
      assert (NW : wf_vals (kd r) nvs /\ exists tl, nvs = q :: tl).
      { subst nvs. destruct vs as [|hd tl].
        - split; [cbn [wf_vals]; auto|eauto].
        - destruct HD as [HD1 HD2]. destruct WV as (PH & _ & CT). cbn [take_ge].
          destruct (Z.ltb_spec (p_size q) (p_size hd)); [lia|].
          destruct (take_ge_split (kd r) vs' q (p_size hd) CH ltac:(lia)) as (rest & _ & _ & X).
          split; [cbn [wf_vals app]|cbn; eauto]. split; [assumption|]. split; [assumption|]. apply X; auto. }
      destruct NW as [NW (ntl & NTL)].
      split; [|split; [apply (proj1 (SETR h2 _))|split]].
      + apply (kept_trans h1 h2); [assumption|].
        apply (set_kept _ _ k r (RVals uz' nvs)); try reflexivity; try assumption.
        * split; [assumption|]. intros U. rewrite NTL. apply (UDQ U).
        * intros e E. rewrite GK. cbn [regden]. intros z Z0.
          assert (IN2 : init_ok h2) by exact (proj2 W2).
          assert (BASE : base_of e h2 k r = over e (pv e (p_a q)) vs').
          { unfold base_of. rewrite (kp_init _ _ K2), INIT. rewrite (den_eq e h2 p r IN2), G2. cbn [regden vden].
            replace (kd r <=? p_size q) with true by lia. reflexivity. }
          rewrite BASE in Z0.
          assert (LQ : forall zq, pv e (p_a q) = Some zq -> low e (Some zq) q).
          { intros zq ZQ y Y. injection Y as <-. pose proof (piece_inr _ _ _ _ PQ E ZQ). rewrite trunc_small by assumption. assumption. }
          assert (BQ : over e (pv e (p_a q)) vs' = pv e (p_a q)).
          { destruct (pv e (p_a q)) as [zq|] eqn:ZQ; [|apply over_none].
            apply (over_clean (kd r) e vs' q zq CH E); [apply LQ; first [assumption|reflexivity]|assumption]. }
          subst nvs. destruct vs as [|hd tl].
          -- cbn [vden] in *. replace (kd r <=? p_size q) with true by lia. assumption.
          -- destruct HD as [HD1 HD2]. cbn [vden] in Z0. replace (kd r <=? p_size hd) with false in Z0 by lia.
             cbn [take_ge]. destruct (Z.ltb_spec (p_size q) (p_size hd)); [lia|]. cbn [app vden].
             replace (kd r <=? p_size q) with true by lia.
             rewrite over_app. rewrite BQ in Z0.
             destruct (take_ge_split (kd r) vs' q (p_size hd) CH ltac:(lia)) as (rest & SP & C1 & _).
             assert (T1 : over e (pv e (p_a q)) (take_ge vs' (p_size hd)) = pv e (p_a q)).
             { destruct (pv e (p_a q)) as [zq|] eqn:ZQ; [|apply over_none].
               apply (over_clean (kd r) e _ q zq C1 E); [apply LQ; first [assumption|reflexivity]|].
               rewrite SP in CL. apply Forall_app in CL. apply CL. }
             rewrite T1. cbn [over]. assumption.
        * intros _. rewrite NTL. destruct uz'; [exact I|exact SQ].
      + right. exists q, ntl. split; [assumption|]. lia.
      + intros k' r' N. rewrite (proj2 (SETR h2 _)) by assumption. apply FR. destruct N; [left; assumption|right; lia].
    - (* PHI *)
      set (php := Piece (phi_val b r) None (nsize r) false). change (Piece _ None (nsize r) false) with php.
      set (g := RVals false (php :: vs)).
      assert (TPHI : tyok (phi_val b r) /\ okty (kd r) (v_ty (phi_val b r)) /\ tsize (v_ty (phi_val b r)) = nsize r).
      { split; [|split].
        - intros e E. exists (e (APhi b r)). unfold vev. cbn. split; [reflexivity|]. apply (E (APhi b r)).
        - unfold phi_val, kd, native_size, native_facet. cbn [v_ty]. destruct r as [i|i|i].
          + unfold okty, okw. cbn. lia.
          + destruct (i =? 2); unfold okty, okw; cbn; lia.
          + destruct A; unfold okty, okscalar, okw; cbn; lia.
        - unfold phi_val, native_size, native_facet. cbn [v_ty]. destruct r as [i|i|i]; [reflexivity|destruct (i =? 2); reflexivity|].
          destruct A; reflexivity. }
      destruct TPHI as (TP1 & TP2 & TP3).
      assert (WPH : wf_piece (kd r) php).
      { subst php. unfold wf_piece. cbn [p_a p_b p_size]. split; [assumption|]. split; [assumption|]. split; [lia|]. discriminate. }
      exists (set_reg (add_phi h1 b r) k r g), false, (php :: vs). split; [reflexivity|].
      split; [|split; [apply (proj1 (SETR (add_phi h1 b r) g))|split]].
      + apply (set_kept _ _ k r g); try reflexivity; try assumption.
        * split; [|discriminate]. cbn [wf_vals]. split; [assumption|]. split; [reflexivity|].
          destruct vs as [|hd tl]; [exact I|]. destruct HD as [HD1 HD2]. destruct WV as (PH' & _ & CT). cbn [chain].
          split; [assumption|]. split; [cbn; cbn in HD1; lia|]. split; [assumption|]. split; [congruence|assumption].
        * intros e E. rewrite G1. subst g. cbn [regden vden]. unfold base_of. rewrite INIT.
          replace (kd r <=? p_size php) with true by (cbn; lia). change (p_a php) with (phi_val b r).
          destruct vs as [|hd tl]; [apply ole_refl|]. cbn [over vden]. destruct HD as [HD1 HD2].
          replace (kd r <=? p_size hd) with false by lia. apply ole_refl.
      + right. exists php, vs. split; [reflexivity|]. cbn. cbn in LF. lia.
      + intros k' r' N. apply (proj2 (SETR (add_phi h1 b r) g)). assumption. }
  destruct P1 as (h2 & uz2 & vs2 & PE & K2 & G2 & ALT & FR2). rewrite PE, G2.
  pose proof (kp_wf _ _ K2) as W2. pose proof (proj1 W2 k r) as WR2. rewrite G2 in WR2. destruct WR2 as [WV2 UD2].
  assert (FR12 : forall k' r', (r' <> r \/ (k < k')%nat) -> h_reg h2 k' r' = h_reg h k' r').
  { intros k' r' N. rewrite FR2 by assumption. apply U1. destruct N; [right; assumption|left; lia]. }
  assert (K12 : kept h h2) by (eapply kept_trans; eassumption).
  destruct vs2 as [|p0 rest].
  - destruct ALT as [-> |(p & vs' & X & _)]; [|discriminate].
    set (np := new_piece (Val (TInt full) (EConst (TInt full) 0)) full).
    assert (TZ : tyok (p_a np)).
    { subst np. intros e E. cbn [p_a new_piece v_e v_ty]. exists (V (TInt full) 0). unfold vev. cbn [eval tsize].
      unfold trunc. rewrite Zmod_0_l. split; [reflexivity|]. split; [reflexivity|]. cbn. unfold inr. pose proof (pow2_pos full). pose proof (okw_pos _ OF). lia. }
    assert (WNP : wf_piece (kd r) np).
    { subst np. unfold wf_piece. cbn [new_piece p_a p_b p_size v_ty tsize]. split; [exact TZ|]. split; [split; [exact OF|cbn [tsize]; assumption]|].
      split; [reflexivity|]. discriminate. }
    eexists _, O. split; [reflexivity|]. split; [|split].
    + eapply kept_trans; [exact K12|]. apply (set_kept _ _ k r (RVals true [np])); try reflexivity; try assumption.
      * split; [apply wf_one; [assumption|reflexivity]|intros _; reflexivity].
      * intros e E. rewrite G2. cbn [regden vden over]. intros z Z0. injection Z0 as <-.
        assert (PZ : pv e (p_a np) = Some 0).
        { unfold pv, vev, np. cbn. reflexivity. }
        rewrite PZ. cbn [ovo omap2]. rewrite ov_zero. destruct (kd r <=? p_size np); reflexivity.
    + exists true, [np], np. split; [apply (proj1 (SETR h2 _))|]. split; [reflexivity|]. split; [cbn; lia|constructor].
    + intros k' r' N. rewrite (proj2 (SETR h2 _)) by assumption. apply FR12. assumption.
  - assert (UZD : uz2 && negb (p_dirty p0) = false).
    { destruct uz2; [|reflexivity]. rewrite (UD2 eq_refl). reflexivity. }
    rewrite UZD. pose proof WV2 as (P0 & CL0 & CH0).
    destruct (fold_idx (p0 :: rest) full 0 0) as [i|] eqn:FI.
    + exists h2, i. split; [reflexivity|]. split; [assumption|]. split; [|assumption].
      exists uz2, (p0 :: rest). cbn [fold_idx] in FI.
      destruct (Z.leb_spec full (p_size p0)) as [GE|LT].
      * destruct (fold_idx_ok (kd r) rest p0 full 1 0 i CH0 ltac:(lia) FI) as [[-> X]|(kk & -> & (p & N & L) & X)].
        -- exists p0. cbn [skipn]. repeat (split; [first [assumption|reflexivity]|]). assumption.
        -- exists p. cbn [Nat.add nth_error skipn]. repeat (split; [first [assumption|reflexivity]|]). exact X.
      * exfalso. destruct (p_dirty p0) eqn:D; [discriminate|]. specialize (CL0 eq_refl). lia.
    + destruct (fold_values_den (kd r) p0 rest full WV2 OF LF) as (res & fs & FV & LFS & LFS2 & WN & DN). rewrite FV.
      eexists _, O. split; [reflexivity|]. split; [|split].
      * eapply kept_trans; [exact K12|]. apply (set_kept _ _ k r (RVals uz2 [new_piece res fs])); try reflexivity; try assumption.
        -- split; [assumption|intros _; reflexivity].
        -- intros e E z Z0. rewrite G2 in Z0. cbn [regden] in *. apply DN; try assumption. intros LT.
           destruct ALT as [-> |(p & vs' & X & Y)]; [reflexivity|]. injection X as <- <-. lia.
        -- rewrite G2. destruct uz2; [auto|]. cbn [av_reg new_piece p_size]. intros X.
           destruct WN as ((_ & [_ O] & S & _) & _). cbn [new_piece p_size p_a] in S, O.
           lia.
      * exists uz2, [new_piece res fs], (new_piece res fs). split; [apply (proj1 (SETR h2 _))|]. split; [reflexivity|]. split; [assumption|constructor].
      * intros k' r' N. rewrite (proj2 (SETR h2 _)) by assumption. apply FR12. assumption.
Qed.

(** ** Reads *)
(** Facets a register of kind [n] is read with. *)
Definition facet_ok (n : nk) (f : facet) : Prop :=
  match f with
  | I1 => nz n = 1
  | I8H => nz n = 64 /\ nb n = true
  | F_MAX | FI | VI8 | VI16 | VI32 | VI64 | VF32 | VF64 => False
  | _ => okty n (facet_type f)
  end.
Definition facet_bits (f : facet) (z : Z) : Z :=
  match f with I8H => trunc 8 (Z.shiftr z 8) | _ => trunc (facet_size f) z end.

Lemma bitcast_ok : forall t v, tyok v -> tsize t = tsize (v_ty v) -> is_ptr t = false -> v_ty v <> TPtr ->
  exists v', mk_cast CBitCast t v = Some v' /\ tyok v' /\ v_ty v' = t /\ forall e, env_ok e -> pv e v' = pv e v.
Proof.
  intros t v T S P NP. destruct (mk_cast CBitCast t v) as [v'|] eqn:M.
  - exists v'. destruct (mk_bitcast _ _ _ _ (or_introl eq_refl) M T) as (X1 & X2 & _ & X3). auto.
  - exfalso. unfold mk_cast in M. destruct (ty_eqb (v_ty v) t) eqn:Q; [discriminate|]. unfold cast_fun in M. rewrite Q in M.
    replace (tsize (v_ty v) =? tsize t) with true in M by lia. rewrite P in M. destruct (v_ty v); try discriminate. contradiction.
Qed.
Lemma bitorptr_ok : forall t v, tyok v -> tsize t = tsize (v_ty v) ->
  (v_ty v = TPtr -> is_int t = true) -> (t = TPtr -> is_int (v_ty v) = true) -> v_ty v <> t \/ True ->
  exists v', mk_cast CBitOrPtr t v = Some v' /\ tyok v' /\ v_ty v' = t /\ forall e, env_ok e -> pv e v' = pv e v.
Proof.
  intros t v T S P1 P2 _. destruct (mk_cast CBitOrPtr t v) as [v'|] eqn:M.
  - exists v'. destruct (mk_bitcast _ _ _ _ (or_intror eq_refl) M T) as (X1 & X2 & _ & X3). auto.
  - exfalso. unfold mk_cast in M. destruct (ty_eqb (v_ty v) t) eqn:Q; [discriminate|].
    assert (X : cast_fun CBitOrPtr (v_ty v) t <> None).
    { unfold cast_fun. rewrite Q, <- S, Z.eqb_refl. clear M.
      destruct (v_ty v) as [w| | | |m et]; destruct t as [w'| | | |m' et'];
        try (specialize (P1 eq_refl)); try (specialize (P2 eq_refl)); try discriminate; cbn [tsize] in S.
      - subst w. discriminate.
      - subst w'. discriminate. }
    destruct (cast_fun CBitOrPtr (v_ty v) t); [discriminate|]. apply X. reflexivity.
Qed.

Lemma conv_scalar : forall n p ft, wf_piece n p -> okscalar ft -> tsize ft < p_size p ->
  exists v, (if is_vec (v_ty (p_a p)) then
      let cnt := tsize (v_ty (p_a p)) / tsize ft in
      if cnt =? 1 then mk_cast CBitCast ft (p_a p)
      else opt v <- mk_cast CBitCast (TVec cnt ft) (p_a p); Some (Val ft (E1 (OExtract 0) (v_e v)))
    else
      opt v <- (if is_int (v_ty (p_a p)) then Some (p_a p) else mk_cast CBitOrPtr (TInt (p_size p)) (p_a p));
      opt v <- (if tsize ft <? p_size p then mk_cast CTrunc (TInt (tsize ft)) v else Some v);
      mk_cast CBitOrPtr ft v) = Some v /\
    tyok v /\ v_ty v = ft /\ forall e, env_ok e -> pv e v = omap (trunc (tsize ft)) (pv e (p_a p)).
Proof.
  intros n p ft (T & O & S & _) OF L. pose proof (okscalar_okw _ OF) as OW. pose proof (okw_pos _ OW) as FP.
  destruct (is_vec (v_ty (p_a p))) eqn:IV.
  - destruct (v_ty (p_a p)) as [| | | |m et] eqn:Y; try discriminate. cbv zeta.
    destruct (okw_dvd (tsize ft) (p_size p) OW ltac:(rewrite S; eapply okty_okw; exact O) ltac:(lia)) as [D1 D2].
    rewrite <- S. set (cnt := p_size p / tsize ft) in *.
    destruct (Z.eqb_spec cnt 1) as [C1|C1]; [nia|].
    destruct (bitcast_ok (TVec cnt ft) (p_a p) T ltac:(rewrite Y; cbn [tsize] in *; lia) eq_refl ltac:(rewrite Y; discriminate)) as (v1 & M1 & T1 & Y1 & P1).
    rewrite M1. eexists. split; [reflexivity|].
    assert (X : tyok (Val ft (E1 (OExtract 0) (v_e v1))) /\ forall e, env_ok e -> pv e (Val ft (E1 (OExtract 0) (v_e v1))) = omap (trunc (tsize ft)) (pv e v1)).
    { apply mk_tyok. intros e E. cbn [v_e v_ty]. unfold vev. cbn [eval]. destruct (pv e v1) as [z|] eqn:PV; cbn [omap].
      - destruct (pv_some _ _ _ E T1 PV) as [X I]. unfold vev in X. rewrite X, Y1. cbn [bind sem1]. unfold extract_sem. cbn [ty_of].
        replace ((0 <=? 0) && (0 <? cnt)) with true by lia. unfold lane. rewrite Z.mul_0_r, Z.shiftr_0_r.
        split; [reflexivity|]. apply trunc_range. lia.
      - pose proof (pv_none _ _ E T1 PV) as X. unfold vev in X. rewrite X, Y1. cbn [bind sem1]. unfold extract_sem. cbn [ty_of].
        replace ((0 <=? 0) && (0 <? cnt)) with true by lia. reflexivity. }
    destruct X as [X1 X2]. split; [assumption|]. split; [reflexivity|]. intros e E. rewrite (X2 e E), (P1 e E). reflexivity.
  - assert (I0 : exists v, (if is_int (v_ty (p_a p)) then Some (p_a p) else mk_cast CBitOrPtr (TInt (p_size p)) (p_a p)) = Some v /\
              tyok v /\ v_ty v = TInt (p_size p) /\ forall e, env_ok e -> pv e v = pv e (p_a p)).
    { destruct (is_int (v_ty (p_a p))) eqn:II.
      - exists (p_a p). split; [reflexivity|]. split; [assumption|]. split; [|reflexivity]. destruct (v_ty (p_a p)); try discriminate.
        rewrite S. reflexivity.
      - apply bitorptr_ok; try assumption; auto. discriminate. }
    destruct I0 as (v1 & -> & T1 & Y1 & P1). replace (tsize ft <? p_size p) with true by lia.
    destruct (mk_trunc _ (tsize ft) v1 Y1 ltac:(lia) T1) as (v2 & M2 & T2 & Y2 & P2). rewrite M2.
    destruct (bitorptr_ok ft v2 T2 ltac:(rewrite Y2; reflexivity) ltac:(rewrite Y2; discriminate) ltac:(rewrite Y2; reflexivity) (or_intror I)) as (v3 & M3 & T3 & Y3 & P3).
    exists v3. split; [assumption|]. split; [assumption|]. split; [assumption|]. intros e E. rewrite (P3 e E), (P2 e E), (P1 e E). reflexivity.
Qed.

Lemma conv_vec : forall n p tc et, wf_piece n p -> nb n = false -> 0 < tc -> okscalar et -> okw (tc * tsize et) -> tc * tsize et < p_size p ->
  exists v, (let nc := tsize (v_ty (p_a p)) / tsize et in
      opt v <- mk_cast CBitCast (TVec nc et) (p_a p);
      if tc <? nc then Some (Val (TVec tc et) (E2 (OShuf (seqZ tc)) (v_e v) (EUndef (TVec nc et)))) else Some v) = Some v /\
    tyok v /\ v_ty v = TVec tc et /\ forall e, env_ok e -> pv e v = omap (trunc (tc * tsize et)) (pv e (p_a p)).
Proof.
  intros n p tc et (T & O & S & _) NB TC OE OW L. pose proof (okscalar_okw _ OE) as OWe. pose proof (okw_pos _ OWe) as EP.
  cbv zeta. rewrite <- S.
  destruct (okw_dvd (tsize et) (p_size p) OWe ltac:(rewrite S; eapply okty_okw; exact O) ltac:(nia)) as [D1 D2].
  set (nc := p_size p / tsize et) in *.
  assert (NP : v_ty (p_a p) <> TPtr). { intro Q. rewrite Q in O. destruct O as [[_ O] _]. congruence. }
  destruct (bitcast_ok (TVec nc et) (p_a p) T ltac:(cbn [tsize]; lia) eq_refl NP) as (v1 & M1 & T1 & Y1 & P1).
  rewrite M1. assert (LT : tc < nc) by nia. replace (tc <? nc) with true by lia. eexists. split; [reflexivity|].
  set (v' := Val _ _).
  assert (X : tyok v' /\ forall e, env_ok e -> pv e v' = omap (trunc (tc * tsize et)) (pv e v1)).
  { apply mk_tyok. intros e E. subst v'. cbn [v_e v_ty]. unfold vev. cbn [eval].
    assert (FM : Forall (fun i => 0 <= i < 2 * nc) (seqZ tc)). { apply Forall_forall. intros i I. apply in_seqZ in I. lia. }
    assert (LM : Z.of_nat (length (seqZ tc)) = tc) by (rewrite seqZ_length; lia).
    destruct (pv e v1) as [z|] eqn:PV; cbn [omap].
    - destruct (pv_some _ _ _ E T1 PV) as [X I]. unfold vev in X. rewrite X, Y1 in *. cbn [bind sem2 tsize] in *.
      pose proof (shuf_ok nc et (seqZ tc) (V (TVec nc et) z) (Poison (TVec nc et)) eq_refl eq_refl FM) as SH. cbn iota in SH.
      rewrite LM in SH.
      replace (existsb (fun i => nc <=? i) (seqZ tc)) with false in SH.
      2: { symmetry. apply not_true_is_false. intro B. apply existsb_exists in B. destruct B as (i & B1 & B2). apply in_seqZ in B1. lia. }
      rewrite SH. pose proof (okw_pos _ OW).
      assert (IT : inr (tc * tsize et) (trunc (tc * tsize et) z)) by (apply trunc_range; lia).
      split; [|assumption]. f_equal. f_equal. apply unlanes_map; try lia. { rewrite Z.mul_comm. assumption. }
      intros j J. apply (bits_eq (tsize et)); try lia; try (apply lane_inr; lia). intros i Hi.
      rewrite !testbit_lane, testbit_trunc by nia. destruct (Z.ltb_spec (tsize et * j + i) (tc * tsize et)); [reflexivity|nia].
    - pose proof (pv_none _ _ E T1 PV) as X. unfold vev in X. rewrite X, Y1. cbn [bind sem2].
      pose proof (shuf_ok nc et (seqZ tc) (Poison (TVec nc et)) (Poison (TVec nc et)) eq_refl eq_refl FM) as SH. cbn iota in SH.
      rewrite LM in SH. apply SH. apply existsb_seqZ0; lia. }
  destruct X as [X1 X2]. split; [assumption|]. split; [reflexivity|]. intros e E. rewrite (X2 e E), (P1 e E). reflexivity.
Qed.

Lemma okty_vec : forall n m e, okty n (TVec m e) -> nb n = false /\ 0 < m /\ okscalar e /\ okw (m * tsize e).
Proof. intros n m e [X _]. exact X. Qed.

Lemma convert_ok : forall n p f, wf_piece n p -> facet_ok n f -> f <> I8H -> facet_size f < p_size p ->
  exists v, convert f (p_a p) (p_size p) = Some v /\ tyok v /\ v_ty v = facet_type f /\
    forall e, env_ok e -> pv e v = omap (facet_bits f) (pv e (p_a p)).
Proof.
  intros n p f P F NH L.
  assert (LN : p_size p <= n) by (destruct P as (_ & [_ O] & S & _); lia).
  destruct f; cbn [facet_ok] in F; try contradiction; try (exfalso; apply NH; reflexivity);
    try match goal with |- context [convert ?f _ _] =>
      exact (conv_scalar n p (facet_type f) P ltac:(cbn; unfold okw; first [exact I|lia]) L) end;
    try (destruct (okty_vec _ _ _ F) as (V1 & V2 & V3 & V4); exact (conv_vec n p _ _ P V1 V2 V3 V4 L)).
  - exfalso. cbn [facet_size] in L. lia.
  - exfalso. cbn [facet_size] in L. destruct F as [[F _] _]. lia.
Qed.

Lemma facet_ok_size : forall n f, facet_ok n f -> okw (match f with I8H => 16 | _ => facet_size f end) /\
  match f with I8H => 16 | _ => facet_size f end <= n.
Proof.
  intros n f F. assert (X : f <> I8H -> f <> I1 -> facet_ok n f -> okty n (facet_type f) /\ tsize (facet_type f) = facet_size f).
  { clear F. intros N1 N2 F. destruct f; cbn [facet_ok] in F; try contradiction; (split; [assumption|reflexivity]). }
  destruct (facet_eq_dec f I8H) as [->|N1]; [|destruct (facet_eq_dec f I1) as [->|N2]].
  - cbn in F. unfold okw. lia.
  - cbn in F. unfold okw. cbn. lia.
  - destruct (X N1 N2 F) as [O S]. pose proof (okty_okw _ _ O) as W. destruct O as [_ O]. rewrite S in *.
    destruct f; try (exfalso; apply N1; reflexivity); split; assumption.
Qed.

(** A read piece holds the low bits of the register. *)
Lemma got_value : forall h k r full i, wf_h h -> got h k r full i ->
  forall uz vs p, h_reg h k r = RVals uz vs -> nth_error vs i = Some p ->
  forall e z, env_ok e -> den e h k r = Some z -> pv e (p_a p) = Some (trunc (p_size p) z).
Proof.
  intros h k r full i W (uz' & vs' & p' & G & N & L & F) uz vs p G' N' e z E D.
  rewrite G in G'. injection G' as <- <-. rewrite N in N'. injection N' as <-.
  rewrite (den_eq e h k r (proj2 W)), G in D. cbn [regden] in D. pose proof (proj1 W k r) as WR. rewrite G in WR.
  destruct vs' as [|q vs]; [destruct i; discriminate|]. destruct WR as [(PQ & _ & CH) _].
  cbn [vden] in D. set (o := if kd r <=? p_size q then _ else _) in D.
  assert (LO : low e o q).
  { subst o. destruct (Z.leb_spec (kd r) (p_size q)).
    - intros y Y. pose proof (piece_inr _ _ _ _ PQ E Y). rewrite trunc_small by assumption. assumption.
    - apply (low_step (kd r)); assumption. }
  apply (over_low (kd r) e vs q o z CH E LO D i p' N).
  cbn [skipn] in F. eapply Forall_impl; [|exact F]. intros a [_ X]. exact X.
Qed.

Lemma chain_set : forall n vs i q p p', chain n q vs -> nth_error vs i = Some p -> wf_piece n p' ->
  p_size p' = p_size p -> p_dirty p' = p_dirty p -> (forall e, env_ok e -> pv e (p_a p') = pv e (p_a p)) ->
  chain n q (list_set vs i p').
Proof.
  induction vs as [|x vs IH]; intros i q p p' C N WP S D PV; [destruct i; discriminate|].
  destruct C as (P & L & LN & CL & C). destruct i.
  - injection N as <-. cbn. split; [assumption|]. split; [lia|]. split; [lia|]. split.
    + intros DD e y E Y. rewrite D in DD. rewrite (PV e E), S. apply CL; assumption.
    + destruct vs as [|y vs]; [exact I|]. destruct C as (P' & L' & LN' & CL' & C'). cbn [chain].
      split; [assumption|]. split; [lia|]. split; [assumption|]. split; [|assumption].
      intros DD e z E Z0. rewrite (PV e E) in Z0. apply CL'; assumption.
  - cbn [nth_error] in N. cbn. split; [assumption|]. split; [assumption|]. split; [assumption|]. split; [assumption|].
    apply (IH i x p p'); assumption.
Qed.
Lemma wf_vals_set : forall n vs i p p', wf_vals n vs -> nth_error vs i = Some p -> wf_piece n p' ->
  p_size p' = p_size p -> p_dirty p' = p_dirty p -> (forall e, env_ok e -> pv e (p_a p') = pv e (p_a p)) ->
  wf_vals n (list_set vs i p') /\
  (forall uz, uz_dirty uz vs -> uz_dirty uz (list_set vs i p')) /\
  (forall e b, env_ok e -> vden n e b (list_set vs i p') = vden n e b vs).
Proof.
  intros n vs i p p' W N WP S D PV.
  assert (OV : forall e, env_ok e -> forall l j o, nth_error l j = Some p -> over e o (list_set l j p') = over e o l).
  { intros e E. induction l as [|x l IH]; intros j o NJ; [destruct j; discriminate|]. destruct j.
    - injection NJ as ->. cbn. rewrite (PV e E), S. reflexivity.
    - cbn [nth_error] in NJ. change (list_set (x :: l) (Datatypes.S j) p') with (x :: list_set l j p'). cbn [over]. apply IH. assumption. }
  destruct vs as [|q vs]; [destruct i; discriminate|]. destruct W as (PQ & CQ & CH). destruct i.
  - injection N as <-. cbn [list_set firstn skipn app]. split; [|split].
    + cbn [wf_vals]. split; [assumption|]. split; [rewrite D, S; assumption|].
      destruct vs as [|y vs]; [exact I|]. destruct CH as (P' & L' & LN' & CL' & C'). cbn [chain].
      split; [assumption|]. split; [lia|]. split; [assumption|]. split; [|assumption].
      intros DD e z E Z0. rewrite (PV e E) in Z0. apply CL'; assumption.
    + intros uz X U. cbn. rewrite D. apply (X U).
    + intros e b E. cbn [vden]. rewrite (PV e E), S. reflexivity.
  - cbn [nth_error] in N. change (list_set (q :: vs) (Datatypes.S i) p') with (q :: list_set vs i p'). split; [|split].
    + cbn [wf_vals]. split; [assumption|]. split; [assumption|]. eapply chain_set; eassumption.
    + intros uz X. exact X.
    + intros e b E. cbn [vden]. apply OV; assumption.
Qed.

Lemma chain_ins : forall n vs i q p p', chain n q vs -> nth_error (q :: vs) i = Some p -> wf_piece n q -> wf_piece n p' ->
  p_size p' < p_size p -> p_dirty p' = false ->
  (forall e, env_ok e -> pv e (p_a p') = omap (trunc (p_size p')) (pv e (p_a p))) ->
  Forall (fun p => p_size p < p_size p') (skipn i vs) -> p_size p <= n ->
  chain n q (list_ins vs i p').
Proof.
  induction vs as [|x vs IH]; intros i q p p' C N WQ WP S D PV F LN.
  - destruct i; [|destruct i; discriminate]. injection N as <-. cbn. split; [assumption|]. split; [lia|]. split; [lia|].
    split; [|exact I]. intros _ e y E Y. rewrite (PV e E), Y. reflexivity.
  - destruct i.
    + injection N as <-. cbn [list_ins firstn skipn app chain]. split; [assumption|]. split; [lia|]. split; [lia|].
      split; [intros _ e y E Y; rewrite (PV e E), Y; reflexivity|].
      destruct C as (P & L & LN' & CL & C). inversion F as [|? ? F1 F2]; subst. split; [assumption|]. split; [lia|]. split; [assumption|].
      split; [|assumption]. intros DD e y E Y. rewrite (PV e E) in Y. destruct (pv e (p_a q)) as [z|] eqn:Z0; [|discriminate].
      injection Y as <-. pose proof (piece_pos _ _ P). rewrite trunc_trunc_le by lia. apply CL; assumption.
    + destruct C as (P & L & LN' & CL & C). change (list_ins (x :: vs) (Datatypes.S i) p') with (x :: list_ins vs i p').
      cbn [chain]. repeat (split; [assumption|]). apply (IH i x p p'); assumption.
Qed.
Lemma over_ins : forall n e vs i q p p' o, chain n q vs -> nth_error (q :: vs) i = Some p -> wf_piece n p' ->
  p_size p' < p_size p -> env_ok e -> low e o q ->
  pv e (p_a p') = omap (trunc (p_size p')) (pv e (p_a p)) ->
  ole (over e o vs) (over e o (list_ins vs i p')).
Proof.
  intros n e. induction vs as [|x vs IH]; intros i q p p' o C N WP S E LO PV.
  - destruct i; [|destruct i; discriminate]. injection N as <-. cbn. intros z Z0. subst o. pose proof (piece_pos _ _ WP).
    rewrite PV, (LO z eq_refl). cbn [omap ovo omap2]. rewrite trunc_trunc_le by lia. rewrite ov_same by lia. reflexivity.
  - destruct i.
    + injection N as <-. cbn [list_ins firstn skipn app]. intros z Z0. cbn [over]. destruct o as [a|].
      * pose proof (piece_pos _ _ WP). rewrite PV, (LO a eq_refl). cbn [omap]. rewrite trunc_trunc_le by lia.
        replace (ovo (p_size p') (Some a) (Some (trunc (p_size p') a))) with (Some a); [assumption|].
        cbn [ovo omap2]. rewrite ov_same by lia. reflexivity.
      * rewrite over_none in Z0. discriminate.
    + change (list_ins (x :: vs) (Datatypes.S i) p') with (x :: list_ins vs i p'). cbn [over].
      destruct C as (P & L & LN' & CL & C). apply (IH i x p p'); try assumption. apply (low_step n); assumption.
Qed.

Lemma set_reg_same : forall h k r g, h_reg (set_reg h k r g) k r = g.
Proof. intros. cbn. rewrite keq_refl. reflexivity. Qed.
Lemma set_reg_other : forall h k r g k' r', (k' <> k \/ r' <> r) -> h_reg (set_reg h k r g) k' r' = h_reg h k' r'.
Proof.
  intros h k r g k' r' N. cbn. destruct (keq_dec k r k' r') as [[-> ->]|Q]; [tauto|rewrite Q; reflexivity].
Qed.

(** The value read from a register and what the read changes. *)
Definition read_ok (h h' : rfs) (k : nat) (r : areg) (f : facet) (v : value) : Prop :=
  kept h h' /\ tyok v /\ v_ty v = facet_type f /\
  (forall e z, env_ok e -> den e h k r = Some z -> pv e v = Some (facet_bits f z)) /\
  (forall k' r', (r' <> r \/ (k < k')%nat) -> h_reg h' k' r' = h_reg h k' r').

Lemma get_reg_ok : forall cache h k r f, wf_h h -> avail h k r -> facet_ok (kd r) f -> f <> I8H ->
  exists h' v, get_reg A cache h k r f = Some (h', v) /\ read_ok h h' k r f v.
Proof.
  intros cache h k r f W AV F NH. destruct (facet_ok_size _ _ F) as [OS LS]. unfold get_reg.
  assert (NHb : facet_eqb f I8H = false). { unfold facet_eqb. destruct (facet_eq_dec f I8H); [contradiction|reflexivity]. }
  set (fs := match f with I8H => 16 | _ => facet_size f end) in *.
  assert (FS : fs = facet_size f) by (subst fs; destruct f; try reflexivity; exfalso; apply NH; reflexivity).
  destruct (get_fold_ok (S k) h k r fs W AV ltac:(lia) OS LS) as (h1 & i & GF & K1 & GT & FR). rewrite GF.
  pose proof (kp_wf _ _ K1) as W1. pose proof GT as (uz & vs & p & G & N & L & FA). rewrite G, N, NHb. cbn [negb andb].
  pose proof (proj1 W1 k r) as WR. rewrite G in WR. destruct WR as [WV UD].
  assert (WP : wf_piece (kd r) p).
  { destruct vs as [|q vs]; [destruct i; discriminate|]. destruct WV as (PQ & _ & CH). destruct (chain_Forall _ _ _ CH) as (F1 & _ & _).
    apply nth_error_In in N. destruct N as [<-|N]; [assumption|]. rewrite Forall_forall in F1. auto. }
  assert (VAL : forall e z, env_ok e -> den e h k r = Some z -> pv e (p_a p) = Some (trunc (p_size p) z)).
  { intros e z E D. apply (kp_ref _ _ K1 e k r E) in D. eapply got_value; eassumption. }
  pose proof WP as (T & O & SP & PB). pose proof (okw_pos _ OS) as FP.
  destruct (Z.eqb_spec (p_size p) fs) as [SE|SN].
  - (* same size *)
    assert (BIT : forall z, trunc (p_size p) z = facet_bits f z).
    { intros z. rewrite SE, FS. destruct f; try reflexivity. exfalso. apply NH. reflexivity. }
    destruct (ty_eqb (v_ty (p_a p)) (facet_type f)) eqn:TE.
    { apply ty_eqb_eq in TE. exists h1, (p_a p). split; [reflexivity|]. split; [assumption|]. split; [assumption|]. split; [assumption|].
      split; [|assumption]. intros e z E D. rewrite (VAL e z E D), BIT. reflexivity. }
    assert (CAST : exists h' v, (opt v <- mk_cast CBitOrPtr (facet_type f) (p_a p);
        Some (set_reg h1 k r (RVals uz (list_set vs i (Piece v (Some (p_a p)) (p_size p) (p_dirty p)))), v)) = Some (h', v) /\
        read_ok h h' k r f v).
    { assert (CO : okty (kd r) (facet_type f)).
      { destruct f; cbn [facet_ok] in F; try contradiction; try exact F; try (exfalso; apply NH; reflexivity).
        (* I1 *) split; [cbn; unfold okw; auto|cbn [facet_type facet_type_opt tsize]; lia]. }
      assert (TSZ : tsize (facet_type f) = p_size p).
      { rewrite SE, FS. destruct f; try reflexivity; cbn [facet_ok] in F; contradiction. }
      assert (KIND : (v_ty (p_a p) = TPtr -> is_int (facet_type f) = true) /\ (facet_type f = TPtr -> is_int (v_ty (p_a p)) = true)).
      { split; intros Q.
        - rewrite Q in O, TE. destruct O as [[_ NB] _]. destruct CO as [CO _]. destruct (facet_type f); try reflexivity; try congruence; try discriminate.
          destruct CO as [CO _]. congruence.
        - rewrite Q in CO, TE. destruct CO as [[_ NB] _]. destruct O as [O _]. destruct (v_ty (p_a p)); try reflexivity; try congruence; try discriminate.
          destruct O as [O _]. congruence. }
      destruct (bitorptr_ok (facet_type f) (p_a p) T ltac:(lia) (proj1 KIND) (proj2 KIND) (or_intror I)) as (v & M & TV & YV & PV).
      rewrite M. set (p' := Piece v (Some (p_a p)) (p_size p) (p_dirty p)).
      assert (WP' : wf_piece (kd r) p').
      { subst p'. unfold wf_piece. cbn [p_a p_b p_size]. split; [assumption|]. rewrite YV. split; [assumption|]. split; [lia|].
        intros vb Q. injection Q as <-. split; [assumption|]. split; [lia|]. intros e E. rewrite (PV e E). reflexivity. }
      destruct (wf_vals_set (kd r) vs i p p' WV N WP' eq_refl eq_refl PV) as (X1 & X2 & X3).
      eexists _, _. split; [reflexivity|]. split; [|split; [assumption|split; [assumption|split]]].
      - eapply kept_trans; [exact K1|]. apply (set_kept _ _ k r (RVals uz (list_set vs i p'))); try reflexivity; try assumption.
        + split; [assumption|]. apply X2. assumption.
        + intros e E. rewrite G. cbn [regden]. rewrite (X3 e _ E). apply ole_refl.
        + rewrite G. cbn [av_reg]. destruct uz; [auto|]. destruct vs as [|q vs]; [destruct i; discriminate|]. destruct i; cbn; [|auto].
          injection N as ->. auto.
      - intros e z E D. rewrite (PV e E), (VAL e z E D), BIT. reflexivity.
      - intros k' r' Q. rewrite set_reg_other; [apply FR; assumption|]. destruct Q; [right; assumption|left; lia]. }
    destruct (p_b p) as [vb|] eqn:VB; [|exact CAST].
    destruct (ty_eqb (v_ty vb) (facet_type f)) eqn:TB; [|exact CAST].
    apply ty_eqb_eq in TB. destruct (PB vb eq_refl) as (B1 & B2 & B3).
    exists h1, vb. split; [reflexivity|]. split; [assumption|]. split; [assumption|]. split; [assumption|]. split; [|assumption].
    intros e z E D. rewrite (B3 e E), (VAL e z E D), BIT. reflexivity.
  - (* conversion *)
    destruct (convert_ok (kd r) p f WP F NH ltac:(lia)) as (v & CV & TV & YV & PV). rewrite CV.
    assert (VALV : forall e z, env_ok e -> den e h k r = Some z -> pv e v = Some (facet_bits f z)).
    { intros e z E D. rewrite (PV e E), (VAL e z E D). cbn [omap]. f_equal.
      assert (FB : forall z, facet_bits f z = trunc fs z) by (intros; rewrite FS; destruct f; try reflexivity; exfalso; apply NH; reflexivity).
      rewrite !FB. apply trunc_trunc_le. lia. }
    destruct cache.
    2: { exists h1, v. split; [reflexivity|]. split; [assumption|]. split; [assumption|]. split; [assumption|]. split; assumption. }
    assert (POS : match nth_error vs (S i) with Some q => p_size q <? fs | None => true end = true).
    { destruct (nth_error vs (S i)) as [q|] eqn:NQ; [|reflexivity].
      assert (IQ : In q (skipn (S i) vs)).
      { clear -NQ. revert i NQ. induction vs as [|x vs IH]; intros i NQ; [destruct i; discriminate|]. destruct i.
        - destruct vs; [discriminate|]. injection NQ as ->. left. reflexivity.
        - cbn [skipn]. apply IH. exact NQ. }
      rewrite Forall_forall in FA. specialize (FA q IQ). lia. }
    rewrite POS. set (p' := Piece v None fs false).
    assert (CO : okty (kd r) (facet_type f)).
    { destruct f; cbn [facet_ok] in F; try contradiction; try exact F; try (exfalso; apply NH; reflexivity).
      split; [cbn; unfold okw; auto|cbn [facet_type facet_type_opt tsize]; lia]. }
    assert (TSZ : tsize (facet_type f) = fs).
    { rewrite FS. destruct f; try reflexivity; cbn [facet_ok] in F; contradiction. }
    assert (WP' : wf_piece (kd r) p').
    { subst p'. unfold wf_piece. cbn [p_a p_b p_size]. rewrite YV. split; [assumption|]. split; [assumption|]. split; [lia|discriminate]. }
    assert (PV' : forall e, env_ok e -> pv e (p_a p') = omap (trunc (p_size p')) (pv e (p_a p))).
    { intros e E. subst p'. cbn [p_a p_size]. rewrite (PV e E), FS. destruct f; try reflexivity. exfalso. apply NH. reflexivity. }
    eexists _, _. split; [reflexivity|]. destruct vs as [|q vs]; [destruct i; discriminate|]. destruct WV as (PQ & CQ & CH).
    change (list_ins (q :: vs) (S i) p') with (q :: list_ins vs i p').
    split; [|split; [assumption|split; [assumption|split; [assumption|]]]].
    + eapply kept_trans; [exact K1|]. apply (set_kept _ _ k r (RVals uz (q :: list_ins vs i p'))); try reflexivity; try assumption.
      * split; [|exact UD]. cbn [wf_vals]. split; [assumption|]. split; [assumption|]. apply (chain_ins (kd r) vs i q p p'); try assumption.
        -- subst p'. cbn [p_size]. lia.
        -- reflexivity.
        -- subst p'. cbn [p_size]. eapply Forall_impl; [|exact FA]. intros a [X _]. exact X.
        -- destruct O as [_ O]. lia.
      * intros e E. rewrite G. cbn [regden vden]. apply (over_ins (kd r) e vs i q p p'); try assumption.
        -- subst p'. cbn [p_size]. lia.
        -- destruct (Z.leb_spec (kd r) (p_size q)).
           ++ intros y Y. pose proof (piece_inr _ _ _ _ PQ E Y). rewrite trunc_small by assumption. assumption.
           ++ apply (low_step (kd r)); assumption.
        -- apply PV'. assumption.
      * rewrite G. cbn [av_reg]. auto.
    + intros k' r' Q. rewrite set_reg_other; [apply FR; assumption|]. destruct Q; [right; assumption|left; lia].
Qed.

(** I8H: bits 8 to 15 of an integer-typed value. *)
Lemma bin_lshr : forall w a b, 0 <= b < w ->
  bin_sem LShr (V (TInt w) a) (V (TInt w) b) = Ok (V (TInt w) (Z.shiftr a b)).
Proof.
  intros w a b B. unfold bin_sem, same2. cbn [ty_of]. rewrite ty_eqb_refl. cbn [int_shape ibin of_ires].
  replace (b <? w) with true by lia. reflexivity.
Qed.
Lemma get_reg_high : forall cache h k r, wf_h h -> avail h k r -> facet_ok (kd r) I8H ->
  (exists h' v, get_reg A cache h k r I8H = Some (h', v) /\ read_ok h h' k r I8H v) \/
  (get_reg A cache h k r I8H = None /\
   exists h' i uz vs p, get_fold A (S k) h k r 16 = Some (h', i) /\ h_reg h' k r = RVals uz vs /\ nth_error vs i = Some p /\ v_ty (p_a p) = TPtr).
Proof.
  intros cache h k r W AV F. destruct (facet_ok_size _ _ F) as [OS LS]. unfold get_reg.
  destruct (get_fold_ok (S k) h k r 16 W AV ltac:(lia) OS LS) as (h1 & i & GF & K1 & GT & FR). rewrite GF.
  pose proof (kp_wf _ _ K1) as W1. pose proof GT as (uz & vs & p & G & N & L & FA). rewrite G, N.
  change (facet_eqb I8H I8H) with true. cbn [negb andb].
  pose proof (proj1 W1 k r) as WR. rewrite G in WR. destruct WR as [WV UD].
  assert (WP : wf_piece (kd r) p).
  { destruct vs as [|q vs]; [destruct i; discriminate|]. destruct WV as (PQ & _ & CH). destruct (chain_Forall _ _ _ CH) as (F1 & _ & _).
    apply nth_error_In in N. destruct N as [<-|N]; [assumption|]. rewrite Forall_forall in F1. auto. }
  assert (VAL : forall e z, env_ok e -> den e h k r = Some z -> pv e (p_a p) = Some (trunc (p_size p) z)).
  { intros e z E D. apply (kp_ref _ _ K1 e k r E) in D. eapply got_value; eassumption. }
  pose proof WP as (T & O & SP & PB). unfold convert. destruct F as [F1 F2].
  destruct (v_ty (p_a p)) as [w| | | |m et] eqn:Y; cbn [is_int].
  - left. cbn [tsize] in SP. set (v1 := Val (TInt w) _).
    assert (X : tyok v1 /\ forall e, env_ok e -> pv e v1 = omap (fun z => Z.shiftr z 8) (pv e (p_a p))).
    { apply mk_tyok. intros e E. subst v1. cbn [v_e v_ty]. unfold vev, eLShr, eBin. cbn [eval].
      assert (T8 : trunc (tsize (TInt w)) 8 = 8).
      { apply trunc_small. cbn [tsize]. split; [lia|]. apply Z.lt_le_trans with (2^4); [reflexivity|]. apply Z.pow_le_mono_r; lia. }
      rewrite T8. destruct (pv e (p_a p)) as [z|] eqn:PV; cbn [omap].
      - destruct (pv_some _ _ _ E T PV) as [X I]. unfold vev in X. rewrite X, Y in *. cbn [bind sem2].
        rewrite bin_lshr by lia. split; [reflexivity|]. apply shiftr_inr; [cbn [tsize]; lia|lia|assumption].
      - pose proof (pv_none _ _ E T PV) as X. unfold vev in X. rewrite X, Y. cbn [bind sem2]. apply bin_poison_l; reflexivity. }
    destruct X as [X1 X2].
    destruct (mk_trunc w 8 v1 eq_refl ltac:(lia) X1) as (v2 & M2 & T2 & Y2 & P2). rewrite M2.
    exists h1, v2. split; [reflexivity|]. split; [assumption|]. split; [assumption|]. split; [assumption|]. split; [|assumption].
    intros e z E D. rewrite (P2 e E), (X2 e E), (VAL e z E D). cbn [omap facet_bits]. f_equal.
    apply (bits_eq 8); try lia; try (apply trunc_range; lia). intros j J.
    rewrite !testbit_trunc, !Z.shiftr_spec, testbit_trunc by lia.
    destruct (Z.ltb_spec (j + 8) (p_size p)); [reflexivity|lia].
  - right. split; [reflexivity|]. exists h1, i, uz, vs, p. auto.
  - exfalso. destruct O as [O _]. congruence.
  - exfalso. destruct O as [O _]. congruence.
  - exfalso. destruct O as [[O _] _]. congruence.
Qed.

(** ** Writes *)
(** No register file has been initialised from [k]. *)
Definition leaf (h : rfs) (k : nat) : Prop := forall k', h_init h k' <> InitParent k.

Lemma write_frame : forall h h' k r g, init_ok h -> leaf h k -> h_init h' = h_init h ->
  (forall k' r', h_reg h' k' r' = if Nat.eqb k k' && areg_eqb r r' then g else h_reg h k' r') ->
  forall e k' r', (k' <> k \/ r' <> r) -> den e h' k' r' = den e h k' r'.
Proof.
  intros h h' k r g W LF I G e k' r' N.
  assert (W' : init_ok h') by (intros a b X; rewrite I in X; exact (W a b X)).
  induction k' as [k' IH] using (well_founded_induction lt_wf).
  rewrite (den_eq e h k' r' W), (den_eq e h' k' r' W').
  assert (B : base_of e h' k' r' = base_of e h k' r').
  { unfold base_of. rewrite I. destruct (h_init h k') as [|p|b] eqn:Q; try reflexivity. apply IH; [exact (W k' p Q)|].
    destruct N as [N|N]; [|right; assumption]. destruct (Nat.eq_dec p k) as [->|P]; [|left; assumption]. exfalso. exact (LF k' Q). }
  rewrite B, G. destruct (keq_dec k r k' r') as [[-> ->]|Q]; [tauto|rewrite Q; reflexivity].
Qed.

Definition same_frame (h h' : rfs) (k : nat) (r : areg) : Prop :=
  wf_h h' /\ h_init h' = h_init h /\ av_le h h' /\
  forall e k' r', env_ok e -> (k' <> k \/ r' <> r) -> ole (den e h k' r') (den e h' k' r').

Lemma set_reg_dirty : forall h k r g k' r', h_reg (set_dirty (set_reg h k r g) k r) k' r' =
  if Nat.eqb k k' && areg_eqb r r' then g else h_reg h k' r'.
Proof. reflexivity. Qed.

Lemma set_frame : forall h h' k r g, wf_h h -> leaf h k -> wf_reg k r g -> (av_reg r (h_reg h k r) -> av_reg r g) ->
  h_init h' = h_init h -> (forall k' r', h_reg h' k' r' = if Nat.eqb k k' && areg_eqb r r' then g else h_reg h k' r') ->
  same_frame h h' k r /\ (forall e, den e h' k r = regden k r e (base_of e h k r) g).
Proof.
  intros h h' k r g W LF WG AV I G. split; [split; [|split; [assumption|split]]|].
  - split; [|rewrite I; exact (proj2 W)]. intros k' r'. rewrite G.
    destruct (keq_dec k r k' r') as [[<- <-]|N]; [rewrite keq_refl; assumption|rewrite N; apply (proj1 W)].
  - eapply set_avail; eassumption.
  - intros e k' r' E N. rewrite (write_frame h h' k r g (proj2 W) LF I G e k' r' N). apply ole_refl.
  - intros e. assert (W' : init_ok h') by (intros a b X; rewrite I in X; exact (proj2 W a b X)).
    rewrite (den_eq e h' k r W'), G, keq_refl. f_equal. unfold base_of. rewrite I.
    destruct (h_init h k) as [|p|b] eqn:Q; try reflexivity.
    apply (write_frame h h' k r g (proj2 W) LF I G). left. pose proof (proj2 W k p Q). lia.
Qed.

Lemma set_full_ok : forall h k r v, wf_h h -> leaf h k -> tyok v -> okty (kd r) (v_ty v) ->
  same_frame h (set_full h k r v) k r /\ avail (set_full h k r v) k r /\
  forall e, env_ok e -> den e (set_full h k r v) k r = pv e v.
Proof.
  intros h k r v W LF T O. unfold set_full. set (p := new_piece v (value_size v)).
  assert (WP : wf_piece (kd r) p).
  { subst p. unfold wf_piece, value_size. cbn [new_piece p_a p_b p_size]. repeat (split; [first [assumption|reflexivity]|]). discriminate. }
  destruct (set_frame h (set_dirty (set_reg h k r (RVals true [p])) k r) k r (RVals true [p]) W LF) as [F D]; try reflexivity.
  - split; [apply wf_one; [assumption|reflexivity]|intros _; reflexivity].
  - split; [assumption|]. split.
    + apply av_set. cbn. rewrite keq_refl. reflexivity.
    + intros e E. rewrite D. cbn [regden vden over]. change (p_a p) with v.
      destruct (pv e v) as [z|]; destruct (kd r <=? p_size p); try reflexivity. cbn [ovo omap2]. rewrite ov_zero. reflexivity.
Qed.

(** Lazily evaluated registers: the transformation is well typed. *)
Definition lazy_val (tr : transform) (v1 v2 v3 : value) : option value :=
  match canon_value (GP 0) (RLazy tr v1 v2 v3) with Some (v, _) => Some v | None => None end.
Lemma set_lazy_ok : forall h k r tr v1 v2 v3 v, wf_h h -> leaf h k -> lazy_val tr v1 v2 v3 = Some v ->
  tyok v -> okty (kd r) (v_ty v) ->
  same_frame h (set_lazy h k r tr v1 v2 v3) k r /\ avail (set_lazy h k r tr v1 v2 v3) k r /\
  forall e, env_ok e -> den e (set_lazy h k r tr v1 v2 v3) k r = pv e v.
Proof.
  intros h k r tr v1 v2 v3 v W LF LV T O. unfold set_lazy.
  assert (CV : exists s, canon_value r (RLazy tr v1 v2 v3) = Some (v, s) /\ s = tsize (v_ty v)).
  { unfold lazy_val in LV. cbn [canon_value] in *. destruct tr; try (injection LV as <-; eexists; split; [reflexivity|reflexivity]).
    destruct (mk_cast CTrunc (TInt 8) v1) as [v'|] eqn:M; [|discriminate]. injection LV as <-. exists 8. split; [reflexivity|].
    unfold mk_cast in M. destruct (ty_eqb (v_ty v1) (TInt 8)) eqn:Q.
    - injection M as <-. apply ty_eqb_eq in Q. rewrite Q. reflexivity.
    - destruct (cast_fun CTrunc (v_ty v1) (TInt 8)); [|discriminate]. injection M as <-. reflexivity. }
  destruct CV as (s & CV & ->). set (p := new_piece v (tsize (v_ty v))).
  assert (WP : wf_piece (kd r) p).
  { subst p. unfold wf_piece. cbn [new_piece p_a p_b p_size]. repeat (split; [first [assumption|reflexivity]|]). discriminate. }
  destruct (set_frame h (set_dirty (set_reg h k r (RLazy tr v1 v2 v3)) k r) k r (RLazy tr v1 v2 v3) W LF) as [F D]; try reflexivity.
  - exists v, (tsize (v_ty v)). split; [assumption|exact WP].
  - split; [assumption|]. split.
    + apply av_set. cbn. rewrite keq_refl. exact I.
    + intros e E. rewrite D. cbn [regden]. rewrite CV. cbn [vden over]. change (p_a (new_piece v (tsize (v_ty v)))) with v.
      destruct (pv e v) as [z|]; destruct (kd r <=? p_size (new_piece v (tsize (v_ty v)))); try reflexivity. cbn [ovo omap2]. rewrite ov_zero. reflexivity.
Qed.

(** callconv.cc:195-217: a register set to the pending load of its slot. *)
Definition set_load (h : rfs) (k : nat) (r : areg) (u : nat) (t : ty) : rfs := set_reg h k r (RLoad u t).
Lemma set_load_ok : forall h k r u t, wf_h h -> leaf h k -> okty (kd r) t ->
  same_frame h (set_load h k r u t) k r /\ avail (set_load h k r u t) k r /\
  forall e, env_ok e -> den e (set_load h k r u t) k r = pv e (Val t (ELeaf (ASlot u r t))).
Proof.
  intros h k r u t W LF O. unfold set_load. set (v := Val t (ELeaf (ASlot u r t))).
  assert (T : tyok v). { intros e E. exists (e (ASlot u r t)). split; [reflexivity|]. exact (E (ASlot u r t)). }
  assert (WP : wf_piece (kd r) (new_piece v (tsize t))).
  { unfold wf_piece. cbn [new_piece p_a p_b p_size]. repeat (split; [first [assumption|reflexivity]|]). discriminate. }
  destruct (set_frame h (set_reg h k r (RLoad u t)) k r (RLoad u t) W LF) as [F D]; try reflexivity.
  - exists v, (tsize t). split; [reflexivity|exact WP].
  - split; [assumption|]. split.
    + apply av_set. cbn. rewrite keq_refl. exact I.
    + intros e E. rewrite D. cbn [regden canon_value]. fold v. cbn [vden over]. change (p_a (new_piece v (tsize t))) with v.
      destruct (pv e v) as [z|]; destruct (kd r <=? p_size (new_piece v (tsize t))); try reflexivity. cbn [ovo omap2]. rewrite ov_zero. reflexivity.
Qed.

(** Merge. *)
Lemma take_gt_split : forall n vs q s, chain n q vs -> exists d, vs = take_gt vs s ++ d /\ Forall (fun p => wf_piece n p /\ p_size p <= s) d.
Proof.
  induction vs as [|p vs IH]; intros q s C; [exists []; split; [reflexivity|constructor]|].
  pose proof C as C0. destruct C as (P & L & _ & _ & C). cbn [take_gt]. destruct (Z.leb_spec (p_size p) s) as [LE|GT].
  - exists (p :: vs). split; [reflexivity|]. destruct (chain_Forall _ _ _ C) as (F1 & F2 & _).
    constructor; [split; assumption|]. rewrite Forall_forall in *. intros x I. specialize (F1 x I). specialize (F2 x I). cbn in F2.
    split; [assumption|lia].
  - destruct (IH p s C) as (d & E & F). exists d. split; [cbn; f_equal; assumption|assumption].
Qed.
Lemma chain_snoc : forall n vs q s p, chain n q vs -> s < p_size q -> p_size q <= n -> wf_piece n p -> p_size p = s -> p_dirty p = true ->
  chain n q (take_gt vs s ++ [p]).
Proof.
  induction vs as [|x vs IH]; intros q s p C L LN P S D.
  - cbn. repeat (split; [first [assumption|lia|congruence]|]). exact I.
  - cbn [take_gt]. destruct C as (PX & LX & LNX & CL & C). destruct (Z.leb_spec (p_size x) s).
    + cbn. repeat (split; [first [assumption|lia|congruence]|]). exact I.
    + cbn [app chain]. repeat (split; [assumption|]). apply IH; try assumption; lia.
Qed.
Lemma over_drop : forall n e d s y z x, Forall (fun p => wf_piece n p /\ p_size p <= s) d -> env_ok e -> inr s x ->
  over e (Some y) d = Some z -> ov s y x = ov s z x.
Proof.
  induction d as [|p d IH]; intros s y z x F E I OV.
  - injection OV as ->. reflexivity.
  - inversion F as [|? ? [P L] F']; subst. cbn [over] in OV.
    destruct (pv e (p_a p)) as [a|] eqn:PA; cbn [ovo omap2] in OV; [|rewrite over_none in OV; discriminate].
    rewrite <- (IH s _ z x F' E I OV). pose proof (piece_inr _ _ _ _ P E PA). pose proof (piece_pos _ _ P).
    unfold ov at 1 2. f_equal. f_equal. apply Z.bits_inj'. intros i Hi. rewrite !Z.shiftr_spec by lia.
    rewrite testbit_ov by (assumption || lia). destruct (Z.ltb_spec (i + s) (p_size p)); [lia|reflexivity].
Qed.

(** Partial write: [o] with the low bits replaced by [x]; a write of native size replaces all. *)
Definition merge_bits (n s : Z) (o x : option Z) : option Z := if n <=? s then x else ovo s o x.

Lemma merge_ok : forall h k r v, wf_h h -> leaf h k -> tyok v -> okty (kd r) (v_ty v) ->
  exists h', merge h k r v = Some h' /\ same_frame h h' k r /\ (tsize (v_ty v) = kd r -> avail h' k r) /\
    forall e, env_ok e -> ole (merge_bits (kd r) (tsize (v_ty v)) (den e h k r) (pv e v)) (den e h' k r).
Proof.
  intros h k r v W LF T O. unfold merge.
  destruct (canonicalize_ok h k r W) as (h1 & uz & vs & CE & K1 & G1 & U1 & _). rewrite CE, G1.
  pose proof (kp_wf _ _ K1) as W1. pose proof (proj1 W1 k r) as WR. rewrite G1 in WR. destruct WR as [WV UD].
  unfold value_size. set (s := tsize (v_ty v)). set (p := new_piece v s). eexists. split; [reflexivity|].
  assert (WP : wf_piece (kd r) p).
  { subst p s. unfold wf_piece. cbn [new_piece p_a p_b p_size]. repeat (split; [first [assumption|reflexivity]|]). discriminate. }
  assert (LS : s <= kd r) by (destruct O as [_ O]; exact O).
  assert (SP : 0 < s) by (eapply okw_pos, okty_okw, O).
  assert (LF1 : leaf h1 k) by (intros k' X; rewrite (kp_init _ _ K1) in X; exact (LF k' X)).
  assert (NW : wf_vals (kd r) (take_gt vs s ++ [p]) /\ uz_dirty uz (take_gt vs s ++ [p])).
  { destruct vs as [|q vs].
    - cbn [take_gt app]. split; [apply wf_one; [assumption|reflexivity]|intros _; reflexivity].
    - cbn [take_gt]. destruct WV as (PQ & CQ & CH). destruct (Z.leb_spec (p_size q) s).
      + cbn [app]. split; [apply wf_one; [assumption|reflexivity]|intros _; reflexivity].
      + cbn [app]. split; [|exact UD]. cbn [wf_vals]. split; [assumption|]. split; [assumption|].
        apply chain_snoc; try assumption; try reflexivity. destruct PQ as (_ & [_ X] & Y & _). lia. }
  set (g := RVals uz (take_gt vs s ++ [p])) in *.
  destruct (set_frame h1 (set_dirty (set_reg h1 k r g) k r) k r g W1 LF1) as [F D]; try reflexivity; try assumption.
  { rewrite G1. subst g. cbn [av_reg]. destruct uz; [auto|]. destruct vs as [|q vs]; [intros []|]. cbn [take_gt].
    destruct (Z.leb_spec (p_size q) s); cbn [app]; intros X; [|assumption]. change (p_size p) with s. lia. }
  destruct F as (F1 & F2 & F3 & F4).
  split; [split; [assumption|split; [|split]]|split].
  - rewrite F2. apply (kp_init _ _ K1).
  - intros k' r' X. apply F3, (kp_av _ _ K1), X.
  - intros e k' r' E N. eapply ole_trans; [apply (kp_ref _ _ K1); assumption|]. apply F4; assumption.
  - intros SE. apply av_reg_avail. rewrite set_reg_dirty, keq_refl. subst g. cbn [av_reg]. destruct uz; [exact I|].
    assert (TE : take_gt vs s = []).
    { destruct vs as [|q vs]; [reflexivity|]. cbn [take_gt]. destruct WV as ((_ & [_ X] & Y & _) & _).
      destruct (Z.leb_spec (p_size q) s); [reflexivity|]. exfalso. lia. }
    rewrite TE. cbn. exact SE.
  - intros e E z Z0. rewrite D. subst g. cbn [regden]. unfold merge_bits in Z0.
    set (b := if uz then Some 0 else base_of e h1 k r).
    destruct (Z.leb_spec (kd r) s) as [GE|LT].
    + assert (TE : take_gt vs s = []).
      { destruct vs as [|q vs]; [reflexivity|]. cbn [take_gt]. destruct WV as ((_ & [_ X] & Y & _) & _).
        destruct (Z.leb_spec (p_size q) s); [reflexivity|]. exfalso. lia. }
      rewrite TE. cbn [app vden over]. change (p_size p) with s. replace (kd r <=? s) with true by lia. exact Z0.
    + unfold ovo, omap2 in Z0. destruct (den e h k r) as [o|] eqn:DO; [|discriminate].
      destruct (pv e v) as [x|] eqn:PX; [|discriminate]. injection Z0 as <-.
      assert (IX : inr s x) by (destruct (pv_some _ _ _ E T PX) as [_ X]; exact X).
      apply (kp_ref _ _ K1 e k r E) in DO. rewrite (den_eq e h1 k r (proj2 W1)), G1 in DO. cbn [regden] in DO. fold b in DO.
      destruct vs as [|q vs].
      * cbn [take_gt app vden over] in *. change (p_size p) with s. replace (kd r <=? s) with false by lia. rewrite DO.
        change (p_a p) with v. rewrite PX. reflexivity.
      * cbn [take_gt]. destruct WV as (PQ & CQ & CH). cbn [vden] in DO.
        destruct (Z.leb_spec (p_size q) s) as [QS|QS].
        -- cbn [app vden over]. change (p_size p) with s. change (p_a p) with v. replace (kd r <=? s) with false by lia.
           replace (kd r <=? p_size q) with false in DO by lia.
           destruct b as [b|]; [|cbn [ovo omap2] in DO; rewrite over_none in DO; discriminate].
           rewrite PX. cbn [ovo omap2]. f_equal.
           apply (over_drop (kd r) e (q :: vs) s b o x); [|assumption|assumption|cbn [over]; exact DO].
           constructor; [split; assumption|]. destruct (chain_Forall _ _ _ CH) as (X1 & X2 & _).
           rewrite Forall_forall in *. intros y Y. specialize (X1 y Y). specialize (X2 y Y). cbn in X2. split; [assumption|lia].
        -- cbn [app vden]. set (o0 := if kd r <=? p_size q then _ else _) in *.
           destruct (take_gt_split (kd r) vs q s CH) as (d & SD & FD). rewrite SD in DO. rewrite over_app in DO.
           rewrite over_app. destruct (over e o0 (take_gt vs s)) as [y|]; [|rewrite over_none in DO; discriminate].
           cbn [over]. change (p_size p) with s. change (p_a p) with v. rewrite PX. cbn [ovo omap2]. f_equal.
           eapply over_drop; eassumption.
Qed.

(** The two formulations of a partial write agree. *)
Lemma merge_bits_cell : forall r o v e, env_ok e -> tyok v -> okty (kd r) (v_ty v) -> (forall z, o = Some z -> inr (kd r) z) ->
  forall x, vev e (v_e v) = Ok x -> merge_cell (kd r) o x = merge_bits (kd r) (tsize (v_ty v)) o (pv e v).
Proof.
  intros r o v e E T [_ LN] IO x X. unfold pv. rewrite X. destruct (T e E) as (x' & X' & TY & WF). rewrite X in X'. injection X' as <-.
  unfold merge_bits. destruct x as [t z|t]; cbn in TY, WF; subst t; cbn [merge_cell].
  - destruct (Z.leb_spec (kd r) (tsize (v_ty v))).
    + rewrite trunc_small; [reflexivity|]. replace (nz (kd r)) with (tsize (v_ty v)) by lia. assumption.
    + destruct o as [o|]; [|reflexivity]. cbn [ovo omap2]. f_equal. specialize (IO o eq_refl).
      assert (0 <= tsize (v_ty v)).
      { destruct (Z.neg_nonneg_cases (tsize (v_ty v))) as [N|N]; [|assumption]. exfalso. unfold inr in WF. rewrite Z.pow_neg_r in WF by assumption. lia. }
      apply Z.bits_inj'. intros i Hi. rewrite testbit_ov by (assumption || lia).
      rewrite Z.lor_spec, Z.land_spec, Z.lxor_spec, !testbit_ones by lia.
      destruct (Z.ltb_spec i (tsize (v_ty v))).
      * destruct (Z.ltb_spec i (kd r)); [|lia]. cbn. rewrite andb_false_r. reflexivity.
      * rewrite (testbit_inr_high (tsize (v_ty v)) z i) by (assumption || lia). rewrite orb_false_r.
        destruct (Z.ltb_spec i (kd r)); cbn; [apply andb_true_r|]. rewrite andb_false_r. symmetry.
        apply (testbit_inr_high (kd r)); try assumption. lia.
  - destruct (kd r <=? tsize (v_ty v)); [reflexivity|]. destruct o; reflexivity.
Qed.

(** ** Lazily evaluated flags *)
(** Evaluation of an integer expression. *)
Definition iev (e : env) (w : Z) (x : exp atom) (o : option Z) : Prop :=
  vev e x = Ok (match o with Some z => V (TInt w) z | None => Poison (TInt w) end).
Lemma iev_val : forall e w v, env_ok e -> tyok v -> v_ty v = TInt w -> iev e w (v_e v) (pv e v).
Proof.
  intros e w v E T Y. unfold iev. destruct (pv e v) as [z|] eqn:P.
  - destruct (pv_some _ _ _ E T P) as [X _]. rewrite X, Y. reflexivity.
  - rewrite (pv_none _ _ E T P), Y. reflexivity.
Qed.
Lemma iev_const : forall e w c, iev e w (EConst (TInt w) c) (Some (trunc w c)).
Proof. reflexivity. Qed.
Definition ilog (op : binop) : option (Z -> Z -> Z) :=
  match op with And => Some Z.land | Or => Some Z.lor | Xor => Some Z.lxor | _ => None end.
Lemma iev_log : forall e w op f x y a b, ilog op = Some f -> iev e w x a -> iev e w y b -> iev e w (E2 (OBin op) x y) (omap2 f a b).
Proof.
  unfold iev, vev. intros e w op f x y a b F X Y. cbn [eval]. rewrite X, Y. cbn [bind sem2].
  destruct op; try discriminate; injection F as <-; destruct a, b; cbn [omap2]; unfold bin_sem, same2; cbn [ty_of]; rewrite ty_eqb_refl; reflexivity.
Qed.
Lemma iev_cmp : forall e w p x y a b, iev e w x a -> iev e w y b -> iev e 1 (eCmp p x y) (omap2 (fun a b => b2z (icmp_sem p w a b)) a b).
Proof.
  unfold iev, vev, eCmp. intros e w p x y a b X Y. cbn [eval]. rewrite X, Y. cbn [bind sem2].
  destruct a, b; cbn [omap2]; unfold cmp_sem, same2; cbn [ty_of]; rewrite ty_eqb_refl; reflexivity.
Qed.

(** The flags as arithmetic on the result [a], left operand [b] and right operand [c]. *)
Definition flag_bits (tr : transform) (w a b c : Z) : Z :=
  match tr with
  | IsZero => b2z (a =? 0)
  | IsNeg => b2z (2^(w-1) <=? a)
  | IsULT => b2z (a <? b)
  | AddOverflowFlag => b2z (Bool.eqb (2^(w-1) <=? b) (2^(w-1) <=? c) && negb (Bool.eqb (2^(w-1) <=? a) (2^(w-1) <=? b)))
  | TruncI8 => a mod 2^8
  | X86AuxFlag => b2z (xorb (xorb (Z.testbit b 4) (Z.testbit c 4)) (Z.testbit a 4))
  end.
(** ... and which operands it depends on. *)
Definition flag_val (tr : transform) (w : Z) (a b c : option Z) : option Z :=
  match tr with
  | IsZero | IsNeg | TruncI8 => omap (fun a => flag_bits tr w a 0 0) a
  | IsULT => omap2 (fun a b => flag_bits tr w a b 0) a b
  | AddOverflowFlag | X86AuxFlag =>
    match a, b, c with Some a, Some b, Some c => Some (flag_bits tr w a b c) | _, _, _ => None end
  end.
(** Operand types that the transformation needs. *)
Definition flag_ops (tr : transform) (w : Z) (v1 v2 v3 : value) : Prop :=
  let ok v := tyok v /\ v_ty v = TInt w in
  match tr with
  | IsZero | IsNeg => ok v1 /\ 0 < w
  | TruncI8 => ok v1 /\ 8 <= w
  | IsULT => ok v1 /\ ok v2 /\ 0 < w
  | AddOverflowFlag => ok v1 /\ ok v2 /\ ok v3 /\ 0 < w
  | X86AuxFlag => ok v1 /\ ok v2 /\ ok v3 /\ 8 <= w
  end.
Definition flag_width (tr : transform) : Z := match tr with TruncI8 => 8 | _ => 1 end.

Lemma sgn_neg : forall w a, 0 < w -> inr w a -> (sgn w a <? 0) = (2^(w-1) <=? a).
Proof.
  intros w a W [A1 A2]. unfold sgn.
  assert (2^w = 2 * 2^(w-1)) by (rewrite <- Z.pow_succ_r by lia; f_equal; lia).
  destruct (Z.leb_spec (2^(w-1)) a); destruct (Z.ltb_spec a (2^(w-1))); try lia; destruct (Z.ltb_spec a 0); try lia; destruct (Z.ltb_spec (a - 2^w) 0); lia.
Qed.
Lemma top_bit : forall w a, 0 < w -> inr w a -> (2^(w-1) <=? a) = Z.testbit a (w-1).
Proof.
  intros w a W [A1 A2]. assert (2^w = 2 * 2^(w-1)) by (rewrite <- Z.pow_succ_r by lia; f_equal; lia).
  rewrite Z.testbit_eqb by lia. assert (P : 0 < 2^(w-1)) by (apply Z.pow_pos_nonneg; lia).
  destruct (Z.leb_spec (2^(w-1)) a).
  - replace (a / 2^(w-1)) with 1; [reflexivity|]. apply Z.div_unique with (a - 2^(w-1)); lia.
  - rewrite Z.div_small by lia. reflexivity.
Qed.
Lemma inr_lxor : forall w a b, 0 <= w -> inr w a -> inr w b -> inr w (Z.lxor a b).
Proof.
  intros w a b W A1 B1. rewrite <- (trunc_small w a A1), <- (trunc_small w b B1).
  replace (Z.lxor (trunc w a) (trunc w b)) with (trunc w (Z.lxor a b)); [apply trunc_range; lia|].
  apply Z.bits_inj'. intros i Hi. rewrite !Z.lxor_spec, !testbit_trunc, Z.lxor_spec by lia. destruct (i <? w); cbn; reflexivity.
Qed.
Lemma inr_land : forall w a b, 0 <= w -> inr w a -> inr w b -> inr w (Z.land a b).
Proof.
  intros w a b W A1 B1. rewrite <- (trunc_small w a A1), <- (trunc_small w b B1).
  replace (Z.land (trunc w a) (trunc w b)) with (trunc w (Z.land a b)); [apply trunc_range; lia|].
  apply Z.bits_inj'. intros i Hi. rewrite !Z.land_spec, !testbit_trunc, Z.land_spec by lia. destruct (i <? w); cbn; rewrite ?andb_true_r, ?andb_false_r; reflexivity.
Qed.
Lemma addov_bits : forall w a b c, 0 < w -> inr w a -> inr w b -> inr w c ->
  (sgn w (Z.land (Z.lxor (Z.lxor b c) (trunc w (-1))) (Z.lxor a b)) <? sgn w (trunc w 0)) =
  Bool.eqb (2^(w-1) <=? b) (2^(w-1) <=? c) && negb (Bool.eqb (2^(w-1) <=? a) (2^(w-1) <=? b)).
Proof.
  intros w a b c W IA IB IC.
  replace (trunc w 0) with 0 by (symmetry; apply Z.mod_0_l; apply Z.pow_nonzero; lia).
  replace (sgn w 0) with 0 by (unfold sgn; destruct (Z.ltb_spec 0 (2^(w-1))) as [|X]; [reflexivity|assert (0 < 2^(w-1)) by (apply Z.pow_pos_nonneg; lia); lia]).
  assert (IM : inr w (trunc w (-1))) by (apply trunc_range; lia).
  rewrite sgn_neg by (auto using inr_land, inr_lxor, Z.lt_le_incl; apply inr_land; try lia; apply inr_lxor; try lia; auto; apply inr_lxor; auto; lia).
  rewrite !top_bit by (try assumption; try lia; apply inr_land; try lia; apply inr_lxor; try lia; auto; apply inr_lxor; auto; lia).
  rewrite Z.land_spec, !Z.lxor_spec, testbit_trunc by lia. replace (w - 1 <? w) with true by lia.
  rewrite Z.bits_m1 by lia. cbn [andb].
  destruct (Z.testbit a (w-1)), (Z.testbit b (w-1)), (Z.testbit c (w-1)); reflexivity.
Qed.
Lemma aux_bits : forall w a b c, 8 <= w ->
  negb (Z.land (Z.lxor (Z.lxor b c) a) (trunc w 16) =? trunc w 0) = xorb (xorb (Z.testbit b 4) (Z.testbit c 4)) (Z.testbit a 4).
Proof.
  intros w a b c W. replace (trunc w 0) with 0 by (symmetry; apply Z.mod_0_l; apply Z.pow_nonzero; lia).
  rewrite (trunc_small w 16) by (split; [lia|apply Z.lt_le_trans with (2^8); [reflexivity|apply Z.pow_le_mono_r; lia]]).
  rewrite <- !Z.lxor_spec. set (x := Z.lxor _ a).
  assert (X : Z.land x 16 = Z.shiftl (Z.b2z (Z.testbit x 4)) 4).
  { apply Z.bits_inj'. intros i Hi. rewrite Z.land_spec, Z.shiftl_spec by lia. change 16 with (2^4). rewrite Z.pow2_bits_eqb by lia.
    destruct (Z.eqb_spec 4 i) as [<-|N]; [replace (4 - 4) with 0 by lia; rewrite andb_true_r; destruct (Z.testbit x 4); reflexivity|].
    rewrite andb_false_r. destruct (Z.testbit x 4); cbn [Z.b2z]; [|rewrite Z.testbit_0_l; reflexivity].
    symmetry. destruct (Z.neg_nonneg_cases (i - 4)); [apply Z.testbit_neg_r; lia|]. change 1 with (2^0). rewrite Z.pow2_bits_eqb by lia. lia. }
  rewrite X. destruct (Z.testbit x 4); reflexivity.
Qed.

Lemma b2z_inr : forall b, inr 1 (b2z b).
Proof. intros []; split; reflexivity || discriminate. Qed.
Lemma iev_tyok : forall v w F, v_ty v = TInt w -> (forall e, env_ok e -> iev e w (v_e v) (F e)) ->
  (forall e z, env_ok e -> F e = Some z -> inr w z) -> tyok v /\ forall e, env_ok e -> pv e v = F e.
Proof.
  intros v w F Y X R. apply mk_tyok. intros e E. specialize (X e E). unfold iev in X. rewrite Y. specialize (R e).
  destruct (F e) as [z|]; [|assumption]. split; [assumption|]. cbn [tsize]. auto.
Qed.

Lemma lazy_flag : forall tr w v1 v2 v3, flag_ops tr w v1 v2 v3 -> exists v, lazy_val tr v1 v2 v3 = Some v /\ tyok v /\
  v_ty v = TInt (flag_width tr) /\ forall e, env_ok e -> pv e v = flag_val tr w (pv e v1) (pv e v2) (pv e v3).
Proof.
  intros tr w v1 v2 v3 O. destruct tr; cbn [flag_ops] in O; unfold lazy_val; cbn [canon_value flag_width].
  - destruct O as ([T1 Y1] & W). eexists. split; [reflexivity|].
    rewrite <- (and_assoc (tyok _)), (and_comm (tyok _)), and_assoc. split; [reflexivity|].
    apply (iev_tyok _ 1); [reflexivity| |].
    + intros e E. cbn [v_e transform_exp flag_val]. rewrite Y1. pose proof (iev_val e w v1 E T1 Y1) as I1.
      pose proof (iev_cmp e w EQ _ _ _ _ I1 (iev_const e w 0)) as R. destruct (pv e v1); exact R.
    + intros e z E Z0. cbn [flag_val] in Z0. destruct (pv e v1); [|discriminate]. injection Z0 as <-. apply b2z_inr.
  - destruct O as ([T1 Y1] & W). eexists. split; [reflexivity|].
    rewrite <- (and_assoc (tyok _)), (and_comm (tyok _)), and_assoc. split; [reflexivity|].
    apply (iev_tyok _ 1); [reflexivity| |].
    + intros e E. cbn [v_e transform_exp flag_val]. rewrite Y1. pose proof (iev_val e w v1 E T1 Y1) as I1.
      pose proof (iev_cmp e w SLT _ _ _ _ I1 (iev_const e w 0)) as R. destruct (pv e v1) as [z|] eqn:P; [|exact R].
      cbn [omap omap2 icmp_sem flag_bits] in *. destruct (pv_some _ _ _ E T1 P) as [_ I]. rewrite Y1 in I. cbn [tsize] in I.
      rewrite <- (sgn_neg w z) by assumption.
      replace (sgn w (trunc w 0)) with 0 in R; [exact R|].
      replace (trunc w 0) with 0 by (symmetry; apply Z.mod_0_l; apply Z.pow_nonzero; lia).
      assert (0 < 2^(w-1)) by (apply Z.pow_pos_nonneg; lia). assert (0 < 2^w) by (apply Z.pow_pos_nonneg; lia).
      unfold sgn. destruct (Z.ltb_spec 0 (2^(w-1))); lia.
    + intros e z E Z0. cbn [flag_val] in Z0. destruct (pv e v1); [|discriminate]. injection Z0 as <-. apply b2z_inr.
  - destruct O as ([T1 Y1] & [T2 Y2] & W). eexists. split; [reflexivity|].
    rewrite <- (and_assoc (tyok _)), (and_comm (tyok _)), and_assoc. split; [reflexivity|].
    apply (iev_tyok _ 1); [reflexivity| |].
    + intros e E. cbn [v_e transform_exp flag_val].
      exact (iev_cmp e w ULT _ _ _ _ (iev_val e w v1 E T1 Y1) (iev_val e w v2 E T2 Y2)).
    + intros e z E Z0. cbn [flag_val] in Z0. destruct (pv e v1), (pv e v2); try discriminate. injection Z0 as <-. apply b2z_inr.
  - destruct O as ([T1 Y1] & [T2 Y2] & [T3 Y3] & W). eexists. split; [reflexivity|].
    rewrite <- (and_assoc (tyok _)), (and_comm (tyok _)), and_assoc. split; [reflexivity|].
    apply (iev_tyok _ 1); [reflexivity| |].
    + intros e E. cbn [v_e transform_exp flag_val]. rewrite Y1.
      pose proof (iev_val e w v1 E T1 Y1) as I1. pose proof (iev_val e w v2 E T2 Y2) as I2. pose proof (iev_val e w v3 E T3 Y3) as I3.
      pose proof (iev_cmp e w SLT _ _ _ _ (iev_log e w And Z.land _ _ _ _ eq_refl
        (iev_log e w Xor Z.lxor _ _ _ _ eq_refl (iev_log e w Xor Z.lxor _ _ _ _ eq_refl I2 I3) (iev_const e w (-1)))
        (iev_log e w Xor Z.lxor _ _ _ _ eq_refl I1 I2)) (iev_const e w 0)) as R.
      destruct (pv e v1) as [a|] eqn:P1; destruct (pv e v2) as [b|] eqn:P2; destruct (pv e v3) as [c|] eqn:P3; try exact R.
      cbn [omap2 icmp_sem flag_bits] in *.
      destruct (pv_some _ _ _ E T1 P1) as [_ J1]. destruct (pv_some _ _ _ E T2 P2) as [_ J2]. destruct (pv_some _ _ _ E T3 P3) as [_ J3].
      rewrite Y1 in J1. rewrite Y2 in J2. rewrite Y3 in J3. cbn [tsize] in *.
      rewrite <- addov_bits by assumption. exact R.
    + intros e z E Z0. cbn [flag_val] in Z0. destruct (pv e v1), (pv e v2), (pv e v3); try discriminate. injection Z0 as <-. apply b2z_inr.
  - destruct O as ([T1 Y1] & W). destruct (mk_trunc w 8 v1 Y1 ltac:(lia) T1) as (v & M & T & Y & P). rewrite M.
    exists v. split; [reflexivity|]. split; [assumption|]. split; [assumption|]. intros e E. rewrite (P e E). reflexivity.
  - destruct O as ([T1 Y1] & [T2 Y2] & [T3 Y3] & W). eexists. split; [reflexivity|].
    rewrite <- (and_assoc (tyok _)), (and_comm (tyok _)), and_assoc. split; [reflexivity|].
    apply (iev_tyok _ 1); [reflexivity| |].
    + intros e E. cbn [v_e transform_exp flag_val]. rewrite Y1.
      pose proof (iev_val e w v1 E T1 Y1) as I1. pose proof (iev_val e w v2 E T2 Y2) as I2. pose proof (iev_val e w v3 E T3 Y3) as I3.
      pose proof (iev_cmp e w NE _ _ _ _ (iev_log e w And Z.land _ _ _ _ eq_refl
        (iev_log e w Xor Z.lxor _ _ _ _ eq_refl (iev_log e w Xor Z.lxor _ _ _ _ eq_refl I2 I3) I1) (iev_const e w 16)) (iev_const e w 0)) as R.
      destruct (pv e v1) as [a|] eqn:P1; destruct (pv e v2) as [b|] eqn:P2; destruct (pv e v3) as [c|] eqn:P3; try exact R.
      cbn [omap2 icmp_sem flag_bits] in *. rewrite <- (aux_bits w) by assumption. exact R.
    + intros e z E Z0. cbn [flag_val] in Z0. destruct (pv e v1), (pv e v2), (pv e v3); try discriminate. injection Z0 as <-. apply b2z_inr.
Qed.
End Ok.
