(** Invariants of the register files needed for whole functions: which PHI nodes,
    loads and instructions a value may mention, and where PHI nodes are created. *)

From Coq Require Import ZArith Lia ZifyBool List Bool.
From Verif Require Import Bits IR Facet Dsl RegFile RegFileOk RegScript Layout Cfg.
Import ListNotations.
Open Scope Z_scope.

(** ** Atoms of expressions *)
Fixpoint ain (P : atom -> Prop) (e : exp atom) : Prop :=
  match e with
  | ELeaf a => P a
  | EConst _ _ | EUndef _ => True
  | E1 _ a => ain P a
  | E2 _ a b => ain P a /\ ain P b
  | E3 _ a b c | EIf a b c => ain P a /\ ain P b /\ ain P c
  end.
Definition vin (P : atom -> Prop) (v : value) : Prop := ain P (v_e v).
Definition pin (P : atom -> Prop) (p : piece) : Prop :=
  vin P (p_a p) /\ match p_b p with Some v => vin P v | None => True end.
Definition rin (P : atom -> Prop) (g : regst) : Prop :=
  match g with
  | RLazy _ v1 v2 v3 => vin P v1 /\ vin P v2 /\ vin P v3
  | RLoad _ _ => True
  | RVals _ vs => Forall (pin P) vs
  end.
Lemma ain_mono : forall (P Q : atom -> Prop), (forall a, P a -> Q a) -> forall e, ain P e -> ain Q e.
Proof. intros P Q I. induction e; cbn [ain]; intuition. Qed.
Lemma vin_mono : forall (P Q : atom -> Prop), (forall a, P a -> Q a) -> forall v, vin P v -> vin Q v.
Proof. intros P Q I v. apply ain_mono. assumption. Qed.
Lemma pin_mono : forall (P Q : atom -> Prop), (forall a, P a -> Q a) -> forall p, pin P p -> pin Q p.
Proof.
  intros P Q I p [X Y]. split; [eapply vin_mono; eassumption|]. destruct (p_b p); [|exact Logic.I]. eapply vin_mono; eassumption.
Qed.
Lemma rin_mono : forall (P Q : atom -> Prop), (forall a, P a -> Q a) -> forall g, rin P g -> rin Q g.
Proof.
  intros P Q I [tr v1 v2 v3|u t|uz vs]; cbn [rin].
  - intros (X & Y & Z0). repeat split; eapply vin_mono; eassumption.
  - auto.
  - intros X. eapply Forall_impl; [|exact X]. intros a. apply pin_mono. assumption.
Qed.
(** Values depend only on their atoms. *)
Lemma vev_ain : forall `{FpuOps} (e e' : env) x, ain (fun a => e a = e' a) x -> vev e x = vev e' x.
Proof.
  intros ? e e'. unfold vev. induction x; cbn [ain eval]; intros X.
  - rewrite X. reflexivity.
  - reflexivity.
  - reflexivity.
  - rewrite IHx by assumption. reflexivity.
  - rewrite IHx1, IHx2 by tauto. reflexivity.
  - rewrite IHx1, IHx2, IHx3 by tauto. reflexivity.
  - rewrite IHx1, IHx2, IHx3 by tauto. reflexivity.
Qed.
Lemma pv_vin : forall `{FpuOps} (e e' : env) v, vin (fun a => e a = e' a) v -> pv e v = pv e' v.
Proof. intros ? e e' v X. unfold pv. rewrite (vev_ain e e' _ X). reflexivity. Qed.

(** ** Values built by the register file *)
Section Vals.
Variable P : atom -> Prop.
Lemma mk_cast_vin : forall c t v v', mk_cast c t v = Some v' -> vin P v -> vin P v'.
Proof.
  intros c t v v' M X. unfold mk_cast in M. destruct (ty_eqb (v_ty v) t); [injection M as <-; assumption|].
  destruct (cast_fun c (v_ty v) t); [|discriminate]. injection M as <-. exact X.
Qed.
Lemma canon_vin : forall r tr v1 v2 v3 v s, canon_value r (RLazy tr v1 v2 v3) = Some (v, s) ->
  vin P v1 -> vin P v2 -> vin P v3 -> vin P v.
Proof.
  intros r tr v1 v2 v3 v s C X1 X2 X3. cbn [canon_value] in C. unfold vin in *.
  destruct tr; try (injection C as <- <-; cbn [v_e transform_exp ain eCmp eAnd eXor eBin]; tauto).
  destruct (mk_cast CTrunc (TInt 8) v1) as [w|] eqn:M; [|discriminate]. injection C as <- <-. eapply mk_cast_vin; eassumption.
Qed.
Lemma fold_int_vin : forall vs w res v, fold_int w res vs = Some v -> vin P res -> Forall (pin P) vs -> vin P v.
Proof.
  induction vs as [|p vs IH]; intros w res v F X FA; cbn [fold_int] in F; [injection F as <-; assumption|].
  inversion FA as [|? ? Y Z0]; subst. destruct (p_dirty p); [|eapply IH; eassumption].
  destruct (mk_cast CBitCast (TInt (p_size p)) (p_a p)) as [v1|] eqn:M1; [|discriminate].
  destruct (mk_cast CZExt (TInt w) v1) as [v2|] eqn:M2; [|discriminate].
  eapply IH; [exact F| |assumption]. unfold vin. cbn [v_e ain eOr eAnd eBin]. split; [split; [assumption|exact I]|].
  apply (mk_cast_vin _ _ _ _ M2). apply (mk_cast_vin _ _ _ _ M1). apply Y.
Qed.
Lemma fold_vec1_vin : forall rs res p v, fold_vec1 rs res p = Some v -> vin P res -> pin P p -> vin P v.
Proof.
  intros rs res p v F X [Y _]. unfold fold_vec1 in F. unfold vin in *. destruct (v_ty (p_a p)) eqn:T;
    match type of F with context [mk_cast ?c ?t ?x] => destruct (mk_cast c t x) as [w'|] eqn:M; [|discriminate] end;
    pose proof (mk_cast_vin _ _ _ _ M X) as XM; unfold vin in XM; injection F as <-; cbn [v_e ain]; tauto.
Qed.
Lemma fold_vec_vin : forall vs rs res v, fold_vec rs res vs = Some v -> vin P res -> Forall (pin P) vs -> vin P v.
Proof.
  induction vs as [|p vs IH]; intros rs res v F X FA; cbn [fold_vec] in F; [injection F as <-; assumption|].
  inversion FA as [|? ? Y Z0]; subst. destruct (p_dirty p); [|eapply IH; eassumption].
  destruct (fold_vec1 rs res p) as [w|] eqn:M; [|discriminate]. eapply IH; [exact F| |assumption]. eapply fold_vec1_vin; eassumption.
Qed.
Lemma vec_extend_vin : forall fs res v, vec_extend fs res = Some v -> vin P res -> vin P v.
Proof.
  intros fs res v F X. unfold vec_extend in F. destruct (v_ty res); try discriminate. destruct (tsize _ <? fs); injection F as <-; [|assumption].
  unfold vin. cbn [v_e ain]. split; [assumption|exact I].
Qed.
Lemma fold_values_vin : forall vs full vs', fold_values vs full = Some vs' -> Forall (pin P) vs -> Forall (pin P) vs'.
Proof.
  intros vs full vs' F FA. unfold fold_values in F. destruct vs as [|p0 rest]; [discriminate|]. cbv zeta in F.
  inversion FA as [|? ? [Y _] Z0]; subst.
  match type of F with context [if ?c then mk_cast ?o ?t ?x else ?d] => destruct (if c then mk_cast o t x else d) as [r0|] eqn:R0; [|discriminate] end.
  assert (X0 : vin P r0).
  { destruct (is_ptr (v_ty (p_a p0)) || is_fp (v_ty (p_a p0))); [eapply mk_cast_vin; eassumption|injection R0 as <-; assumption]. }
  match type of F with (match ?X with Some _ => _ | None => None end = _) => destruct X as [res|] eqn:R; [|discriminate] end.
  injection F as <-. constructor; [|constructor]. split; [|exact I]. cbn [p_a new_piece].
  destruct (is_int (v_ty r0)).
  - match type of R with context [mk_cast ?c ?t ?x] => destruct (mk_cast c t x) as [r1|] eqn:M; [|discriminate] end.
    eapply fold_int_vin; [exact R| |assumption]. eapply mk_cast_vin; eassumption.
  - destruct (is_vec (v_ty r0)); [|discriminate].
    match type of R with context [fold_vec ?c ?t ?x] => destruct (fold_vec c t x) as [r1|] eqn:M; [|discriminate] end.
    eapply vec_extend_vin; [exact R|]. eapply fold_vec_vin; eassumption.
Qed.
Lemma conv_scalar_vin : forall ft fs v s v',
  (if is_vec (v_ty v) then
      let cnt := tsize (v_ty v) / tsize ft in
      if cnt =? 1 then mk_cast CBitCast ft v
      else opt v <- mk_cast CBitCast (TVec cnt ft) v; Some (Val ft (E1 (OExtract 0) (v_e v)))
    else
      opt v <- (if is_int (v_ty v) then Some v else mk_cast CBitOrPtr (TInt s) v);
      opt v <- (if fs <? s then mk_cast CTrunc (TInt fs) v else Some v);
      mk_cast CBitOrPtr ft v) = Some v' -> vin P v -> vin P v'.
Proof.
  intros ft fs v s v' C X. cbv zeta in C. destruct (is_vec (v_ty v)).
  - destruct (_ =? 1); [eapply mk_cast_vin; eassumption|].
    destruct (mk_cast CBitCast _ v) as [w|] eqn:M; [|discriminate]. injection C as <-. apply (mk_cast_vin _ _ _ _ M X).
  - destruct (if is_int (v_ty v) then Some v else mk_cast CBitOrPtr (TInt s) v) as [w|] eqn:M1; [|discriminate].
    destruct (if fs <? s then mk_cast CTrunc (TInt fs) w else Some w) as [w'|] eqn:M2; [|discriminate].
    eapply mk_cast_vin; [exact C|]. assert (vin P w).
    { destruct (is_int (v_ty v)); [injection M1 as <-; assumption|eapply mk_cast_vin; eassumption]. }
    destruct (fs <? s); [eapply mk_cast_vin; eassumption|injection M2 as <-; assumption].
Qed.
Lemma conv_vec_vin : forall ft v v',
  match ft with
    | TVec tc et =>
      let nc := tsize (v_ty v) / tsize et in
      opt v <- mk_cast CBitCast (TVec nc et) v;
      if tc <? nc then Some (Val (TVec tc et) (E2 (OShuf (seqZ tc)) (v_e v) (EUndef (TVec nc et)))) else Some v
    | _ => None
  end = Some v' -> vin P v -> vin P v'.
Proof.
  intros ft v v' C X. destruct ft; try discriminate. cbv zeta in C. destruct (mk_cast CBitCast _ v) as [w|] eqn:M; [|discriminate].
  pose proof (mk_cast_vin _ _ _ _ M X). destruct (_ <? _); injection C as <-; [|assumption]. unfold vin. cbn [v_e ain]. split; [assumption|exact I].
Qed.
Lemma convert_vin : forall f v s v', convert f v s = Some v' -> vin P v -> vin P v'.
Proof.
  intros f v s v' C X. unfold convert in C.
  destruct f; first [eapply conv_vec_vin; eassumption | eapply conv_scalar_vin; eassumption | idtac].
  destruct (is_int (v_ty v)); [|discriminate]. eapply mk_cast_vin; [exact C|]. unfold vin. cbn [v_e ain eLShr eBin]. split; [assumption|exact I].
Qed.
End Vals.

(** Files after [k] are not touched by reading [k]. *)
Lemma canonicalize_other : forall h k r h', canonicalize h k r = Some h' -> forall k' r', (k' <> k \/ r' <> r) -> h_reg h' k' r' = h_reg h k' r'.
Proof.
  intros h k r h' C k' r' N. unfold canonicalize in C. destruct (h_reg h k r) as [tr v1 v2 v3|u t|uz vs] eqn:G.
  - destruct (canon_value r (RLazy tr v1 v2 v3)) as [[v s]|]; [|discriminate]. injection C as <-. apply set_reg_other. assumption.
  - injection C as <-. rewrite set_reg_other by assumption. reflexivity.
  - injection C as <-. reflexivity.
Qed.
Lemma get_fold_above : forall A fuel h k r full h' i, (forall k p, h_init h k = InitParent p -> (p < k)%nat) ->
  get_fold A fuel h k r full = Some (h', i) -> h_init h' = h_init h /\ forall k' r', (k < k')%nat -> h_reg h' k' r' = h_reg h k' r'.
Proof.
  intros A. induction fuel as [|fuel IH]; intros h k r full h' i IP GF; [discriminate|]. cbn [get_fold] in GF.
  destruct (canonicalize h k r) as [h1|] eqn:CE; [|discriminate].
  assert (I1 : h_init h1 = h_init h).
  { unfold canonicalize in CE. destruct (h_reg h k r); [|injection CE as <-; reflexivity|injection CE as <-; reflexivity].
    destruct (canon_value r _) as [[v s]|]; [|discriminate]. injection CE as <-. reflexivity. }
  assert (O1 : forall k' r', (k < k')%nat -> h_reg h1 k' r' = h_reg h k' r').
  { intros k' r' L. apply (canonicalize_other _ _ _ _ CE). left. lia. }
  destruct (h_reg h1 k r) as [| |uz vs] eqn:G1; try discriminate.
  match type of GF with (match ?c with Some x => _ | None => None end) = _ => destruct c as [h2|] eqn:C2; [|discriminate] end.
  assert (Q : h_init h2 = h_init h1 /\ forall k' r', (k < k')%nat -> h_reg h2 k' r' = h_reg h1 k' r').
  { destruct (negb uz && _) in C2; [|injection C2 as <-; auto].
    destruct (h_init h1 k) as [|p|b] eqn:IN; [discriminate| |].
    - destruct (get_fold A fuel h1 p r (native_size A r)) as [[h3 j]|] eqn:GP; [|discriminate].
      assert (IP1 : forall k p, h_init h1 k = InitParent p -> (p < k)%nat) by (rewrite I1; assumption).
      destruct (IH _ _ _ _ _ _ IP1 GP) as (I3 & O3). pose proof (IP1 _ _ IN) as LT.
      destruct (h_reg h3 p r) as [| |uz' vs'] eqn:G3; try discriminate. injection C2 as <-. split; [exact I3|].
      intros k' r' L. rewrite set_reg_other by lia. apply O3. lia.
    - injection C2 as <-. split; [reflexivity|]. intros k' r' L. rewrite set_reg_other by lia. reflexivity. }
  destruct Q as (I2 & O2). destruct (h_reg h2 k r) as [| |uz2 vs2] eqn:G2; try discriminate.
  destruct vs2 as [|p0 vs2].
  - destruct uz2; [|discriminate]. injection GF as <- <-. split; [cbn; congruence|].
    intros k' r' L. rewrite set_reg_other by lia. rewrite O2, O1 by lia. reflexivity.
  - destruct (uz2 && negb (p_dirty p0)); [discriminate|].
    destruct (fold_idx (p0 :: vs2) full 0 0) as [j|]; [injection GF as <- <-|].
    + split; [congruence|]. intros k' r' L. rewrite O2, O1 by lia. reflexivity.
    + destruct (fold_values (p0 :: vs2) full) as [vs'|] eqn:FV; [|discriminate]. injection GF as <- <-. split; [cbn; congruence|].
      intros k' r' L. rewrite set_reg_other by lia. rewrite O2, O1 by lia. reflexivity.
Qed.

(** ** Invariant *)
Section Heap.
Context `{FpuOps}.
Variable A : arch.
(** The register file whose code contains an instruction. *)
Variable own : nat -> nat.
(** First register file of each block. *)
Variable first : nat -> option nat.

Definition nty (r : areg) : ty := facet_type (native_facet A r).
(** Atoms that exist and can be used in the code of register file [k]. *)
Definition aok (h : rfs) (k : nat) (a : atom) : Prop :=
  match a with
  | AVar n _ => (own n <= k)%nat
  | APhi b r => In (b, r) (h_phis h) /\ exists j, first b = Some j /\ (j <= k)%nat
  | ASlot u r t => In (u, r) (h_loads h) /\ (u <= k)%nat /\ t = nty r
  end.
Record hok (h : rfs) : Prop := {
  ho_in : forall k r, rin (aok h k) (h_reg h k r);
  ho_load : forall k r u t, h_reg h k r = RLoad u t -> u = k /\ t = nty r /\ h_dirty h k r = false /\ h_init h k = InitNone;
  ho_nd : NoDup (h_phis h);
  ho_phi : forall b r, In (b, r) (h_phis h) -> exists k, first b = Some k /\ h_init h k = InitPhi b /\ av_reg A r (h_reg h k r);
  ho_iphi : forall k b, h_init h k = InitPhi b -> first b = Some k;
  ho_ipar : forall k p, h_init h k = InitParent p -> (p < k)%nat;
}.
(** What reading register [r] does to the lists of PHI nodes and loads. *)
Record hext (r : areg) (h h' : rfs) : Prop := {
  hx_phis : exists l, h_phis h' = h_phis h ++ l /\ Forall (fun x => snd x = r) l;
  hx_loads : forall x, In x (h_loads h) -> In x (h_loads h');
  hx_new : forall u r', In (u, r') (h_loads h') -> In (u, r') (h_loads h) \/ (h_dirty h u r' = false /\ h_init h u = InitNone);
  hx_dirty : h_dirty h' = h_dirty h;
  hx_init : h_init h' = h_init h;
}.
Lemma hext_refl : forall r h, hext r h h.
Proof. intros. split; auto. exists []. rewrite app_nil_r. auto. Qed.
Lemma hext_trans : forall r a b c, hext r a b -> hext r b c -> hext r a c.
Proof.
  intros r a b c X Y. split.
  - destruct (hx_phis _ _ _ X) as (l1 & E1 & F1), (hx_phis _ _ _ Y) as (l2 & E2 & F2). exists (l1 ++ l2).
    rewrite E2, E1, app_assoc. split; [reflexivity|]. apply Forall_app. auto.
  - intros x I. apply (hx_loads _ _ _ Y), (hx_loads _ _ _ X). assumption.
  - intros u r' I. destruct (hx_new _ _ _ Y u r' I) as [Z0|Z0].
    + apply (hx_new _ _ _ X). assumption.
    + right. rewrite (hx_dirty _ _ _ X), (hx_init _ _ _ X) in Z0. assumption.
  - rewrite (hx_dirty _ _ _ Y). apply (hx_dirty _ _ _ X).
  - rewrite (hx_init _ _ _ Y). apply (hx_init _ _ _ X).
Qed.
Lemma aok_mono : forall h h' k k' a, (forall x, In x (h_phis h) -> In x (h_phis h')) -> (forall x, In x (h_loads h) -> In x (h_loads h')) ->
  (k <= k')%nat -> aok h k a -> aok h' k' a.
Proof.
  intros h h' k k' [n t|b r|u r t] IP IL L; cbn [aok].
  - lia.
  - intros (X & j & Y & Z0). split; [auto|]. exists j. split; [assumption|lia].
  - intros (X & Y & Z0). repeat split; auto. lia.
Qed.
Lemma hext_aok : forall r h h' k a, hext r h h' -> aok h k a -> aok h' k a.
Proof.
  intros r h h' k a X. apply aok_mono; [|apply (hx_loads _ _ _ X)|lia].
  destruct (hx_phis _ _ _ X) as (l & -> & _). intros x I. apply in_or_app. auto.
Qed.

(** One register replaced, possibly a PHI node created. *)
Lemma set_hok : forall h h' k r g l, hok h ->
  (forall k' r', h_reg h' k' r' = if Nat.eqb k k' && areg_eqb r r' then g else h_reg h k' r') ->
  h_init h' = h_init h -> (forall k' r', h_dirty h' k' r' = true -> h_dirty h k' r' = true \/ (k' = k /\ r' = r)) ->
  h_phis h' = h_phis h ++ l -> (forall x, In x (h_loads h) -> In x (h_loads h')) ->
  (l = [] \/ exists b, l = [(b, r)] /\ h_init h k = InitPhi b /\ ~ av_reg A r (h_reg h k r) /\ av_reg A r g) ->
  rin (aok h' k) g -> (forall u t, g <> RLoad u t) -> (av_reg A r (h_reg h k r) -> av_reg A r g) -> hok h'.
Proof.
  intros h h' k r g l HO G HI HD HP HL LL RG NL AV.
  assert (MONO : forall k a, aok h k a -> aok h' k a).
  { intros k0 a. apply aok_mono; [|assumption|lia]. rewrite HP. intros x I. apply in_or_app. auto. }
  split.
  - intros k' r'. rewrite G. destruct (keq_dec k r k' r') as [[<- <-]|Q]; [rewrite keq_refl; assumption|rewrite Q].
    eapply rin_mono; [apply MONO|apply (ho_in _ HO)].
  - intros k' r' u t. rewrite G. destruct (keq_dec k r k' r') as [[<- <-]|Q]; [rewrite keq_refl; intros X; destruct (NL u t X)|].
    rewrite Q. intros X. destruct (ho_load _ HO _ _ _ _ X) as (X1 & X2 & X3 & X4). rewrite HI.
    split; [assumption|]. split; [assumption|]. split; [|assumption].
    destruct (h_dirty h' k' r') eqn:D; [|reflexivity]. destruct (HD _ _ D) as [Y|[-> ->]]; [congruence|].
    rewrite keq_refl in Q. discriminate.
  - rewrite HP. destruct LL as [->|(b & -> & IB & NAV & _)]; [rewrite app_nil_r; apply (ho_nd _ HO)|].
    assert (NI : ~ In (b, r) (h_phis h)).
    { intros I. destruct (ho_phi _ HO _ _ I) as (j & F & _ & V). rewrite (ho_iphi _ HO _ _ IB) in F. injection F as <-. exact (NAV V). }
    rewrite <- (rev_involutive (h_phis h ++ [(b, r)])). apply NoDup_rev. rewrite rev_app_distr. cbn [rev app]. constructor.
    + rewrite <- in_rev. assumption.
    + apply NoDup_rev. apply (ho_nd _ HO).
  - intros b r'. rewrite HP, HI. intros I. apply in_app_or in I. destruct I as [I|I].
    + destruct (ho_phi _ HO _ _ I) as (j & F & IJ & V). exists j. split; [assumption|]. split; [assumption|]. rewrite G.
      destruct (keq_dec k r j r') as [[<- <-]|Q]; [rewrite keq_refl; auto|rewrite Q; assumption].
    + destruct LL as [->|(b' & -> & IB & NAV & V)]; [destruct I|]. destruct I as [E|[]]. injection E as <- <-.
      exists k. split; [apply (ho_iphi _ HO); assumption|]. split; [assumption|]. rewrite G, keq_refl. assumption.
  - rewrite HI. apply (ho_iphi _ HO).
  - rewrite HI. apply (ho_ipar _ HO).
Qed.

Lemma canonicalize_hok : forall h k r h', hok h -> canonicalize h k r = Some h' ->
  hok h' /\ hext r h h' /\ exists uz vs, h_reg h' k r = RVals uz vs.
Proof.
  intros h k r h' HO C. unfold canonicalize in C. destruct (h_reg h k r) as [tr v1 v2 v3|u t|uz vs] eqn:G.
  - destruct (canon_value r (RLazy tr v1 v2 v3)) as [[v s]|] eqn:CV; [|discriminate]. injection C as <-.
    pose proof (ho_in _ HO k r) as R. rewrite G in R. destruct R as (R1 & R2 & R3).
    split; [|split].
    + apply (set_hok h _ k r (RVals true [new_piece v s]) []); [assumption|reflexivity|reflexivity|auto|cbn; rewrite app_nil_r; reflexivity|auto|auto| |discriminate|intros _; exact I].
      cbn [rin]. constructor; [|constructor]. split; [|exact I]. cbn [p_a new_piece].
      apply (canon_vin _ r tr v1 v2 v3 v s CV); assumption.
    + split; auto. exists []. rewrite app_nil_r. auto.
    + cbn. rewrite keq_refl. eauto.
  - injection C as <-. destruct (ho_load _ HO _ _ _ _ G) as (-> & -> & D & IN). split; [|split].
    + apply (set_hok h _ k r (RVals true [new_piece (Val (nty r) (ELeaf (ASlot k r (nty r)))) (tsize (nty r))]) []);
        [assumption|reflexivity|reflexivity|auto|cbn; rewrite app_nil_r; reflexivity|intros x X; cbn; apply in_or_app; auto|auto| |discriminate|intros _; exact I].
      cbn [rin]. constructor; [|constructor]. split; [|exact I]. unfold vin. cbn. split; [apply in_or_app; right; left; reflexivity|]. split; [lia|reflexivity].
    + split; auto.
      * exists []. rewrite app_nil_r. auto.
      * intros x X. cbn. apply in_or_app. auto.
      * intros u r' X. cbn in X. apply in_app_or in X. destruct X as [X|[X|[]]]; [auto|]. injection X as <- <-. auto.
    + cbn. rewrite keq_refl. eauto.
  - injection C as <-. split; [assumption|]. split; [apply hext_refl|]. eauto.
Qed.

Lemma take_ge_in : forall P vs s, Forall P vs -> Forall P (take_ge vs s).
Proof. induction vs as [|p vs IH]; intros s F; cbn [take_ge]; [constructor|]. inversion F; subst. destruct (p_size p <? s); [constructor|]. constructor; auto. Qed.
Lemma take_gt_in : forall P vs s, Forall P vs -> Forall P (take_gt vs s).
Proof. induction vs as [|p vs IH]; intros s F; cbn [take_gt]; [constructor|]. inversion F; subst. destruct (p_size p <=? s); [constructor|]. constructor; auto. Qed.
Lemma list_set_in : forall T (P : T -> Prop) l i x, Forall P l -> P x -> Forall P (list_set l i x).
Proof.
  intros T P l i x F X. unfold list_set. apply Forall_app. split; [|constructor; [assumption|]];
  apply Forall_forall; intros y I; rewrite Forall_forall in F; apply F.
  - rewrite <- (firstn_skipn i l). apply in_or_app. auto.
  - rewrite <- (firstn_skipn (S i) l). apply in_or_app. auto.
Qed.
Lemma list_ins_in : forall T (P : T -> Prop) l i x, Forall P l -> P x -> Forall P (list_ins l i x).
Proof.
  intros T P l i x F X. unfold list_ins. apply Forall_app. split; [|constructor; [assumption|]];
  apply Forall_forall; intros y I; rewrite Forall_forall in F; apply F.
  - rewrite <- (firstn_skipn i l). apply in_or_app. auto.
  - rewrite <- (firstn_skipn i l). apply in_or_app. auto.
Qed.
Lemma nth_in : forall T (P : T -> Prop) l i x, Forall P l -> nth_error l i = Some x -> P x.
Proof. intros T P l i x F N. rewrite Forall_forall in F. apply F. eapply nth_error_In. eassumption. Qed.

Lemma nsz_nonneg : forall r, 0 < native_size A r.
Proof. intros r. pose proof (kd_okw A r) as X. unfold kd, okw in X. cbn [nz] in X. cbn in X. lia. Qed.

Lemma get_fold_hok : forall fuel h k r full h' i, hok h -> full <= native_size A r -> get_fold A fuel h k r full = Some (h', i) ->
  hok h' /\ hext r h h'.
Proof.
  induction fuel as [|fuel IH]; intros h k r full h' i HO LF GF; [discriminate|]. cbn [get_fold] in GF.
  destruct (canonicalize h k r) as [h1|] eqn:CE; [|discriminate].
  destruct (canonicalize_hok _ _ _ _ HO CE) as (HO1 & X1 & uz & vs & G1). rewrite G1 in GF.
  match type of GF with (match ?c with Some x => _ | None => None end) = _ => destruct c as [h2|] eqn:C2; [|discriminate] end.
  assert (Q : hok h2 /\ hext r h1 h2).
  { destruct (negb uz && match vs with [] => true | p :: _ => p_size p <? full end) eqn:B; [|injection C2 as <-; split; [assumption|apply hext_refl]].
    apply andb_prop in B. destruct B as [B1 B2]. destruct uz; [discriminate|].
    assert (NAV : ~ av_reg A r (h_reg h1 k r)).
    { rewrite G1. cbn [av_reg]. destruct vs as [|p vs]; [tauto|]. apply Z.ltb_lt in B2. unfold kd. cbn [nz]. lia. }
    destruct (h_init h1 k) as [|p|b] eqn:IN; [discriminate| |].
    - destruct (get_fold A fuel h1 p r (native_size A r)) as [[h3 j]|] eqn:GP; [|discriminate].
      destruct (IH _ _ _ _ _ _ HO1 (Z.le_refl _) GP) as (HO3 & X3).
      destruct (h_reg h3 p r) as [| |uz' vs'] eqn:G3; try discriminate. injection C2 as <-.
      set (g := match vs with [] => vs' | q :: _ => take_ge vs' (p_size q) ++ vs end).
      assert (LT : (p < k)%nat) by (apply (ho_ipar _ HO1); assumption).
      assert (FG : Forall (pin (aok h3 k)) g).
      { assert (F1 : Forall (pin (aok h3 k)) vs').
        { pose proof (ho_in _ HO3 p r) as R. rewrite G3 in R. cbn [rin] in R. eapply Forall_impl; [|exact R]. intros q. apply pin_mono.
          intros a. apply aok_mono; auto. lia. }
        subst g. destruct vs as [|q vs]; [assumption|]. apply Forall_app. split; [apply take_ge_in; assumption|].
        pose proof (ho_in _ HO1 k r) as R. rewrite G1 in R. cbn [rin] in R. eapply Forall_impl; [|exact R]. intros q'. apply pin_mono.
        intros a. apply (hext_aok r). assumption. }
      split.
      + assert (NAV3 : ~ av_reg A r (h_reg h3 k r)) by (rewrite (proj2 (get_fold_above _ _ _ _ _ _ _ _ (ho_ipar _ HO1) GP) k r LT); assumption).
        apply (set_hok h3 _ k r (RVals uz' g) []); [assumption|reflexivity|reflexivity|auto|cbn; rewrite app_nil_r; reflexivity|auto|auto|assumption|discriminate|].
        intros X. destruct (NAV3 X).
      + eapply hext_trans; [exact X3|]. split; auto. exists []. rewrite app_nil_r. auto.
    - injection C2 as <-. split.
      + apply (set_hok h1 _ k r (RVals false (Piece (Val (facet_type (native_facet A r)) (ELeaf (APhi b r))) None (native_size A r) false :: vs)) [(b, r)]);
          [assumption|reflexivity|reflexivity|auto|reflexivity|auto| | |discriminate|].
        * right. exists b. split; [reflexivity|]. split; [assumption|]. split; [assumption|]. reflexivity.
        * cbn [rin]. constructor.
          -- split; [|exact I]. unfold vin. cbn. split; [apply in_or_app; right; left; reflexivity|].
             exists k. split; [apply (ho_iphi _ HO1); assumption|lia].
          -- pose proof (ho_in _ HO1 k r) as R. rewrite G1 in R. cbn [rin] in R. eapply Forall_impl; [|exact R]. intros q'. apply pin_mono.
             intros a. apply aok_mono; auto. cbn. intros x Y. apply in_or_app. auto.
        * intros X. destruct (NAV X).
      + split; auto. exists [(b, r)]. cbn. split; [reflexivity|]. constructor; auto. }
  destruct Q as (HO2 & X2). destruct (h_reg h2 k r) as [| |uz2 vs2] eqn:G2; try discriminate.
  assert (X12 : hext r h h2) by (eapply hext_trans; eassumption).
  destruct vs2 as [|p0 vs2].
  - destruct uz2; [|discriminate]. injection GF as <- <-. split.
    + apply (set_hok h2 _ k r (RVals true [new_piece (Val (TInt full) (EConst (TInt full) 0)) full]) []);
        [assumption|reflexivity|reflexivity|auto|cbn; rewrite app_nil_r; reflexivity|auto|auto| |discriminate|intros _; exact I].
      cbn [rin]. constructor; [|constructor]. split; exact I.
    + eapply hext_trans; [exact X12|]. split; auto. exists []. rewrite app_nil_r. auto.
  - destruct (uz2 && negb (p_dirty p0)); [discriminate|].
    destruct (fold_idx (p0 :: vs2) full 0 0) as [j|]; [injection GF as <- <-; auto|].
    destruct (fold_values (p0 :: vs2) full) as [vs'|] eqn:FV; [|discriminate]. injection GF as <- <-.
    pose proof (ho_in _ HO2 k r) as R. rewrite G2 in R. cbn [rin] in R. split.
    + apply (set_hok h2 _ k r (RVals uz2 vs') []);
        [assumption|reflexivity|reflexivity|auto|cbn; rewrite app_nil_r; reflexivity|auto|auto| |discriminate|].
      * cbn [rin]. eapply fold_values_vin; eassumption.
      * rewrite G2. cbn [av_reg]. destruct uz2; [auto|]. unfold kd. cbn [nz]. intros E. cbn [fold_values] in FV.
        match type of FV with (match ?c with Some x => _ | None => None end) = _ => destruct c as [r0|]; [|discriminate] end.
        match type of FV with (match ?c with Some x => _ | None => None end) = _ => destruct c as [res|]; [|discriminate] end.
        injection FV as <-. cbn [new_piece p_size]. destruct (Z.ltb_spec full (p_size p0)); lia.
    + eapply hext_trans; [exact X12|]. split; auto. exists []. rewrite app_nil_r. auto.
Qed.

Lemma hext_step : forall r h h', h_phis h' = h_phis h -> h_loads h' = h_loads h -> h_dirty h' = h_dirty h -> h_init h' = h_init h -> hext r h h'.
Proof.
  intros r h h' P L D I. split; auto.
  - exists []. rewrite app_nil_r. auto.
  - rewrite L. auto.
  - rewrite L. auto.
Qed.
Lemma get_reg_hok : forall c h k r f h' v, hok h -> match f with I8H => 16 | _ => facet_size f end <= native_size A r ->
  get_reg A c h k r f = Some (h', v) -> hok h' /\ hext r h h' /\ vin (aok h' k) v.
Proof.
  intros c h k r f h' v HO LF G. unfold get_reg in G. set (fs := match f with I8H => 16 | _ => facet_size f end) in *.
  destruct (get_fold A (S k) h k r fs) as [[h1 i]|] eqn:GF; [|discriminate].
  destruct (get_fold_hok _ _ _ _ _ _ _ HO LF GF) as (HO1 & X1).
  destruct (h_reg h1 k r) as [| |uz vs] eqn:G1; try discriminate. destruct (nth_error vs i) as [p|] eqn:N; [|discriminate].
  pose proof (ho_in _ HO1 k r) as R. rewrite G1 in R. cbn [rin] in R. pose proof (nth_in _ _ _ _ _ R N) as [PA PB].
  assert (SET : forall vs', Forall (pin (aok h1 k)) vs' -> (av_reg A r (RVals uz vs) -> av_reg A r (RVals uz vs')) ->
    hok (set_reg h1 k r (RVals uz vs')) /\ hext r h (set_reg h1 k r (RVals uz vs'))).
  { intros vs' F AV. split.
    - apply (set_hok h1 _ k r (RVals uz vs') []);
        [assumption|reflexivity|reflexivity|auto|cbn; rewrite app_nil_r; reflexivity|auto|auto|exact F|discriminate|rewrite G1; assumption].
    - eapply hext_trans; [exact X1|]. apply hext_step; reflexivity. }
  destruct (negb (facet_eqb f I8H) && (p_size p =? fs)).
  - destruct (ty_eqb (v_ty (p_a p)) (facet_type f)); [injection G as <- <-; auto|].
    assert (CAST : (opt v <- mk_cast CBitOrPtr (facet_type f) (p_a p);
                  Some (set_reg h1 k r (RVals uz (list_set vs i (Piece v (Some (p_a p)) (p_size p) (p_dirty p)))), v)) = Some (h', v) ->
                  hok h' /\ hext r h h' /\ vin (aok h' k) v).
    { clear G. intros G. destruct (mk_cast CBitOrPtr (facet_type f) (p_a p)) as [w|] eqn:M; [|discriminate]. injection G as <- <-.
      pose proof (mk_cast_vin _ _ _ _ _ M PA) as PW. destruct (SET (list_set vs i (Piece w (Some (p_a p)) (p_size p) (p_dirty p)))) as [Y1 Y2].
      - apply list_set_in; [assumption|]. split; assumption.
      - cbn [av_reg]. destruct uz; [auto|]. destruct vs as [|q vs]; [destruct i; discriminate|]. destruct i; cbn in *; [|auto]. injection N as ->. auto.
      - auto. }
    destruct (p_b p) as [vb|]; [|exact (CAST G)]. destruct (ty_eqb (v_ty vb) (facet_type f)); [|exact (CAST G)].
    injection G as <- <-. auto.
  - destruct (convert f (p_a p) (p_size p)) as [w|] eqn:CV; [|discriminate]. pose proof (convert_vin _ _ _ _ _ CV PA) as PW.
    destruct (facet_eqb f I8H); [injection G as <- <-; auto|]. destruct c; [|injection G as <- <-; auto].
    match type of G with (if ?b then _ else _) = _ => destruct b; [|discriminate] end. injection G as <- <-.
    destruct (SET (list_ins vs (S i) (Piece w None fs false))) as [Y1 Y2].
    + apply list_ins_in; [assumption|]. split; [assumption|exact I].
    + cbn [av_reg]. destruct uz; [auto|]. destruct vs as [|q vs]; [tauto|]. cbn. auto.
    + auto.
Qed.

Lemma set_full_hok : forall h k r v, hok h -> vin (aok h k) v -> hok (set_full h k r v).
Proof.
  intros h k r v HO V. apply (set_hok h _ k r (RVals true [new_piece v (value_size v)]) []);
    [assumption|reflexivity|reflexivity| |cbn; rewrite app_nil_r; reflexivity|auto|auto| |discriminate|intros _; exact I].
  - cbn. intros k' r' D. destruct (keq_dec k r k' r') as [[<- <-]|Q]; [auto|]. rewrite Q in D. auto.
  - cbn [rin]. constructor; [|constructor]. split; [exact V|exact I].
Qed.
Lemma set_lazy_hok : forall h k r tr v1 v2 v3, hok h -> vin (aok h k) v1 -> vin (aok h k) v2 -> vin (aok h k) v3 -> hok (set_lazy h k r tr v1 v2 v3).
Proof.
  intros h k r tr v1 v2 v3 HO V1 V2 V3. apply (set_hok h _ k r (RLazy tr v1 v2 v3) []);
    [assumption|reflexivity|reflexivity| |cbn; rewrite app_nil_r; reflexivity|auto|auto| |discriminate|intros _; exact I].
  - cbn. intros k' r' D. destruct (keq_dec k r k' r') as [[<- <-]|Q]; [auto|]. rewrite Q in D. auto.
  - repeat split; assumption.
Qed.
Lemma merge_hok : forall h k r v h', hok h -> vin (aok h k) v -> tsize (v_ty v) <= native_size A r -> wf_h A h -> merge h k r v = Some h' ->
  hok h' /\ (forall x, In x (h_loads h) -> In x (h_loads h')) /\ h_phis h' = h_phis h /\ h_init h' = h_init h /\
  (forall u r', In (u, r') (h_loads h') -> In (u, r') (h_loads h) \/ (h_dirty h u r' = false /\ h_init h u = InitNone)) /\
  (forall k' r', h_dirty h' k' r' = if Nat.eqb k k' && areg_eqb r r' then true else h_dirty h k' r').
Proof.
  intros h k r v h' HO V SZ W M. unfold merge in M. destruct (canonicalize h k r) as [h1|] eqn:CE; [|discriminate].
  destruct (canonicalize_hok _ _ _ _ HO CE) as (HO1 & X1 & uz & vs & G1). rewrite G1 in M. injection M as <-.
  pose proof (ho_in _ HO1 k r) as R. rewrite G1 in R. cbn [rin] in R.
  assert (PH : h_phis h1 = h_phis h).
  { unfold canonicalize in CE. destruct (h_reg h k r); [|injection CE as <-; reflexivity|injection CE as <-; reflexivity].
    destruct (canon_value r _) as [[w s]|]; [|discriminate]. injection CE as <-. reflexivity. }
  split; [|split; [|split; [|split; [|split]]]].
  - apply (set_hok h1 _ k r (RVals uz (take_gt vs (value_size v) ++ [new_piece v (value_size v)])) []);
      [assumption|reflexivity|reflexivity| |cbn; rewrite app_nil_r; reflexivity|auto|auto| |discriminate|].
    + cbn. intros k' r' D. destruct (keq_dec k r k' r') as [[<- <-]|Q]; [auto|]. rewrite Q in D. auto.
    + cbn [rin]. apply Forall_app. split; [apply take_gt_in; assumption|]. constructor; [|constructor]. split; [|exact I].
      cbn [new_piece p_a]. eapply vin_mono; [|exact V]. intros a Y. exact (hext_aok r h h1 k a X1 Y).
    + rewrite G1. cbn [av_reg]. destruct uz; [auto|]. destruct vs as [|q vs]; [tauto|]. cbn [take_gt].
      destruct (Z.leb_spec (p_size q) (value_size v)); [|auto]. cbn [app new_piece p_size]. unfold kd, value_size in *. cbn [nz]. lia.
  - apply (hx_loads _ _ _ X1).
  - exact PH.
  - apply (hx_init _ _ _ X1).
  - apply (hx_new _ _ _ X1).
  - cbn. rewrite (hx_dirty _ _ _ X1). reflexivity.
Qed.
Lemma set_load_hok : forall h k r, hok h -> h_dirty h k r = false -> h_init h k = InitNone -> hok (set_load h k r k (nty r)).
Proof.
  intros h k r HO D IN. unfold set_load. split.
  - intros k' r'. cbn [set_reg h_reg]. destruct (keq_dec k r k' r') as [[<- <-]|Q]; [rewrite keq_refl; exact I|rewrite Q]. apply (ho_in _ HO).
  - intros k' r' u t. cbn [set_reg h_reg h_dirty h_init]. destruct (keq_dec k r k' r') as [[<- <-]|Q]; [rewrite keq_refl|rewrite Q; apply (ho_load _ HO)].
    intros E. injection E as <- <-. auto.
  - apply (ho_nd _ HO).
  - intros b r' X. destruct (ho_phi _ HO b r' X) as (j & F & IJ & V). exists j. split; [assumption|]. split; [assumption|].
    cbn [set_reg h_reg]. destruct (keq_dec k r j r') as [[<- <-]|Q]; [rewrite keq_refl; exact I|rewrite Q; assumption].
  - apply (ho_iphi _ HO).
  - apply (ho_ipar _ HO).
Qed.
End Heap.

(** A new register file. *)
Lemma with_init_hok : forall A own first first' h n i, hok A own first h ->
  h_init h n = InitNone -> (forall r, h_reg h n r = RVals false []) ->
  (forall b k, first b = Some k -> first' b = Some k /\ (k < n)%nat) ->
  (forall b, i = InitPhi b -> first' b = Some n) -> (forall p, i = InitParent p -> (p < n)%nat) ->
  hok A own first' (with_init h n i).
Proof.
  intros A own first first' h n i HO IN EM FF FP PP.
  assert (MONO : forall k a, aok A own first h k a -> aok A own first' (with_init h n i) k a).
  { intros k [m t|b r|u r t]; cbn; auto. intros (X & j & Y & Z0). split; [assumption|]. exists j. split; [apply FF; assumption|assumption]. }
  split.
  - intros k r. cbn [with_init h_reg]. eapply rin_mono; [apply MONO|]. apply (ho_in _ _ _ _ HO).
  - intros k r u t. cbn [with_init h_reg h_dirty h_init]. intros E. destruct (ho_load _ _ _ _ HO _ _ _ _ E) as (X1 & X2 & X3 & X4).
    destruct (Nat.eqb_spec k n) as [->|Q]; [rewrite EM in E; discriminate|]. auto.
  - apply (ho_nd _ _ _ _ HO).
  - intros b r X. destruct (ho_phi _ _ _ _ HO b r X) as (j & F & IJ & V). exists j. split; [apply FF; assumption|]. split; [|assumption].
    cbn [with_init h_init]. destruct (FF _ _ F) as [_ L]. destruct (Nat.eqb_spec j n); [lia|assumption].
  - intros k b. cbn [with_init h_init]. destruct (Nat.eqb_spec k n) as [->|Q].
    + intros ->. auto.
    + intros E. apply FF. apply (ho_iphi _ _ _ _ HO). assumption.
  - intros k p. cbn [with_init h_init]. destruct (Nat.eqb_spec k n) as [->|Q].
    + intros ->. auto.
    + apply (ho_ipar _ _ _ _ HO).
Qed.
