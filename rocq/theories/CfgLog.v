(** Histories of register file operations: the contents of all registers after a
    history, and the same contents computed file by file. *)

From Coq Require Import ZArith Lia ZifyBool List Bool.
From Verif Require Import Bits IR Facet Dsl RegFile RegFileOk RegScript Layout Cfg CfgHeap.
Import ListNotations.
Open Scope Z_scope.

Definition log := list (rop * option value).

Section Log.
Context `{FpuOps}.
Variable A : arch.
Notation kd := (kd A).
Notation env_ok := (env_ok A).
Notation tyok := (tyok A).

(** Number of register files. *)
Fixpoint nlog (l : log) : nat := match l with [] => O | (o, _) :: l' => next (nlog l') o end.
(** How they were initialised. *)
Fixpoint ilog (l : log) (k : nat) : rinit :=
  match l with
  | [] => InitNone
  | (ONew i, _) :: l' => if Nat.eqb k (nlog l') then i else ilog l' k
  | _ :: l' => ilog l' k
  end.
(** All registers of all files (RegScript.spec1). *)
Fixpoint mlog (e : env) (l : log) : regmap :=
  match l with [] => fun _ _ => None | (o, _) :: l' => spec1 A e (mlog e l') (nlog l') o end.
(** The file and the values of an operation. *)
Definition file_of (o : rop) : option nat :=
  match o with ONew _ => None | OSet k _ _ | OMerge k _ _ | OLazy k _ _ _ _ _ | OLoad k _ _ _ | OGet _ k _ _ => Some k end.
Definition opvals (o : rop) : list value :=
  match o with OSet _ _ v | OMerge _ _ v => [v] | OLazy _ _ _ v1 v2 v3 => [v1; v2; v3] | _ => [] end.

(** One register of one file: [s] is the content of its slot when the file was
    unpacked, [x0] its content when the file was created. *)
Definition cstep (e : env) (k : nat) (r : areg) (s x : option Z) (o : rop) : option Z :=
  match o with
  | OSet k' r' v => if Nat.eqb k k' && areg_eqb r r' then pv e v else x
  | OMerge k' r' v => if Nat.eqb k k' && areg_eqb r r' then insert_low (native_size A r) (opw v) x (pv e v) else x
  | OLazy k' r' tr v1 v2 v3 => if Nat.eqb k k' && areg_eqb r r' then eager e tr (opw v1) v1 v2 v3 else x
  | OLoad k' r' _ _ => if Nat.eqb k k' && areg_eqb r r' then s else x
  | ONew _ | OGet _ _ _ _ => x
  end.
Fixpoint rcell (e : env) (k : nat) (r : areg) (s x0 : option Z) (l : log) : option Z :=
  match l with [] => x0 | (o, _) :: l' => cstep e k r s (rcell e k r s x0 l') o end.

(** Well-formed histories. *)
Definition wfop (l : log) (o : rop) : Prop :=
  match o with
  | ONew (InitParent p) => (p < nlog l)%nat
  | ONew _ => True
  | OGet _ k _ _ => (k < nlog l)%nat
  | OSet k r v | OMerge k r v => (k < nlog l)%nat /\ (forall j, ilog l j <> InitParent k) /\ tyok v /\ okty (kd r) (v_ty v)
  | OLazy k r tr v1 v2 v3 => (k < nlog l)%nat /\ (forall j, ilog l j <> InitParent k) /\ okty (kd r) (TInt (flag_width tr)) /\ flag_ops A tr (opw v1) v1 v2 v3
  | OLoad k r u t => (k < nlog l)%nat /\ (forall j, ilog l j <> InitParent k) /\ u = k /\ t = nty A r
  end.
Fixpoint wflog (l : log) : Prop := match l with [] => True | (o, _) :: l' => wflog l' /\ wfop l' o end.

Definition slot_val (k : nat) (r : areg) : value := Val (nty A r) (ELeaf (ASlot k r (nty A r))).
Definition mbase (e : env) (l : log) (k : nat) (r : areg) : option Z :=
  match ilog l k with
  | InitNone => None
  | InitParent p => mlog e l p r
  | InitPhi b => pv e (phi_val A b r)
  end.

Lemma keqb_sym : forall k r k' r', Nat.eqb k k' && areg_eqb r r' = Nat.eqb k' k && areg_eqb r' r.
Proof.
  intros. rewrite Nat.eqb_sym. f_equal. destruct (areg_eqb r r') eqn:E, (areg_eqb r' r) eqn:E'; try reflexivity.
  - apply areg_eqb_eq in E. subst. rewrite areg_eqb_refl in E'. discriminate.
  - apply areg_eqb_eq in E'. subst. rewrite areg_eqb_refl in E. discriminate.
Qed.
Lemma ilog_lt : forall l k p, wflog l -> ilog l k = InitParent p -> (p < k)%nat /\ (k < nlog l)%nat.
Proof.
  induction l as [|[o x] l IH]; intros k p W E; [discriminate|]. destruct W as [W WO].
  destruct o as [i|k' r' v|k' r' v|k' r' tr v1 v2 v3|k' r' u t|c k' r' f]; cbn [ilog nlog next wfop] in *; try (apply IH; assumption).
  destruct (Nat.eqb_spec k (nlog l)) as [->|Q].
  - subst i. lia.
  - destruct (IH k p W E). lia.
Qed.
Lemma ilog_none : forall l k, wflog l -> (nlog l <= k)%nat -> ilog l k = InitNone.
Proof.
  induction l as [|[o x] l IH]; intros k W L; [reflexivity|]. destruct W as [W WO].
  destruct o as [i|k' r' v|k' r' v|k' r' tr v1 v2 v3|k' r' u t|c k' r' f]; cbn [ilog nlog next] in *; try (apply IH; assumption).
  destruct (Nat.eqb_spec k (nlog l)); [lia|]. apply IH; [assumption|lia].
Qed.
Lemma rcell_fresh : forall e l k r s x0, wflog l -> (nlog l <= k)%nat -> rcell e k r s x0 l = x0.
Proof.
  induction l as [|[o x] l IH]; intros k r s x0 W L; [reflexivity|]. destruct W as [W WO].
  cbn [rcell]. rewrite IH; [|assumption|destruct o; cbn [nlog next] in L; lia].
  destruct o as [i|k' r' v|k' r' v|k' r' tr v1 v2 v3|k' r' u t|c k' r' f]; cbn [cstep nlog next wfop] in *; try reflexivity;
    (destruct (Nat.eqb_spec k k'); [lia|reflexivity]).
Qed.
(** Writes leave other files alone. *)
Lemma mlog_other : forall e l o k r, file_of o <> Some k -> (forall i, o = ONew i -> (k < nlog l)%nat) -> spec1 A e (mlog e l) (nlog l) o k r = mlog e l k r.
Proof.
  intros e l o k r N L. destruct o as [i|k' r' v|k' r' v|k' r' tr v1 v2 v3|k' r' u t|c k' r' f]; cbn [spec1 file_of] in *; unfold upd; try reflexivity;
    try (destruct (Nat.eqb_spec k' k); [subst; destruct N; reflexivity|reflexivity]).
  specialize (L i eq_refl). destruct i; (destruct (Nat.eqb_spec k (nlog l)); [lia|reflexivity]).
Qed.
(** Contents file by file. *)
Theorem mlog_cell : forall e l k r, wflog l -> (k < nlog l)%nat -> mlog e l k r = rcell e k r (pv e (slot_val k r)) (mbase e l k r) l.
Proof.
  intros e. induction l as [|[o x] l IH]; intros k r W L; [cbn in L; lia|]. destruct W as [W WO]. cbn [mlog rcell].
  assert (NEW : forall i, o = ONew i -> spec1 A e (mlog e l) (nlog l) o k r = cstep e k r (pv e (slot_val k r)) (rcell e k r (pv e (slot_val k r)) (mbase e ((o, x) :: l) k r) l) o).
  { intros i ->. cbn [cstep nlog next] in *. destruct (Nat.eq_dec k (nlog l)) as [->|Q].
    - rewrite rcell_fresh by (assumption || lia). unfold mbase. cbn [ilog spec1]. rewrite Nat.eqb_refl. destruct i as [|p|b]; rewrite ?Nat.eqb_refl; try reflexivity.
      cbn [mlog]. cbn [wfop] in WO. symmetry. apply mlog_other; [discriminate|]. auto.
    - rewrite mlog_other by (discriminate || (intros; lia)). rewrite IH by (assumption || lia). f_equal.
      unfold mbase. cbn [ilog]. destruct (Nat.eqb_spec k (nlog l)); [contradiction|]. destruct (ilog l k) as [|p|b] eqn:IL; try reflexivity.
      cbn [mlog]. destruct (ilog_lt _ _ _ W IL). symmetry. apply mlog_other; [discriminate|]. intros; lia. }
  destruct o as [i|k' r' v|k' r' v|k' r' tr v1 v2 v3|k' r' u t|c k' r' f]; [apply (NEW i); reflexivity|..]; clear NEW; cbn [nlog next] in L;
  (match goal with |- spec1 A e _ _ ?o k r = _ =>
    assert (MB : mbase e ((o, x) :: l) k r = mbase e l k r);
    [unfold mbase; cbn [ilog]; destruct (ilog l k) as [|p|b] eqn:IL;
     first [reflexivity | cbn [mlog]; apply mlog_other;
       [cbn [file_of wfop] in *; intros E; injection E as ->; destruct WO as (_ & WO & _); exact (WO k IL) | discriminate]] | rewrite MB] end).
  - cbn [spec1 cstep]. unfold upd. rewrite keqb_sym. destruct (Nat.eqb k k' && areg_eqb r r'); [reflexivity|apply IH; assumption].
  - cbn [spec1 cstep]. unfold upd. rewrite keqb_sym. destruct (Nat.eqb k k' && areg_eqb r r') eqn:Q; [|apply IH; assumption].
    apply andb_prop in Q. destruct Q as [Q1 Q2]. apply Nat.eqb_eq in Q1. apply areg_eqb_eq in Q2. subst k' r'. rewrite <- IH by assumption. reflexivity.
  - cbn [spec1 cstep]. unfold upd. rewrite keqb_sym. destruct (Nat.eqb k k' && areg_eqb r r'); [reflexivity|apply IH; assumption].
  - cbn [spec1 cstep]. unfold upd. rewrite keqb_sym. destruct (Nat.eqb k k' && areg_eqb r r') eqn:Q; [|apply IH; assumption].
    apply andb_prop in Q. destruct Q as [Q1 Q2]. apply Nat.eqb_eq in Q1. apply areg_eqb_eq in Q2. subst k' r'.
    destruct WO as (_ & _ & -> & ->). reflexivity.
  - cbn [spec1 cstep]. apply IH; assumption.
Qed.

(** ** Consequences *)
Lemma rcell_mono : forall e e' k r l s s' x x', ole s s' -> ole x x' ->
  Forall (fun ox => file_of (fst ox) = Some k -> Forall (fun v => pv e v = pv e' v) (opvals (fst ox))) l ->
  ole (rcell e k r s x l) (rcell e' k r s' x' l).
Proof.
  intros e e' k r l s s' x x' LS LX. induction l as [|[o y] l IH]; intros F; [assumption|]. inversion F as [|? ? F1 F2]; subst. cbn [fst] in F1.
  specialize (IH F2). cbn [rcell]. destruct o as [i|k' r' v|k' r' v|k' r' tr v1 v2 v3|k' r' u t|c k' r' f]; cbn [cstep file_of opvals] in *; try assumption;
  (destruct (Nat.eqb_spec k k') as [<-|Q]; [|exact IH]); (destruct (areg_eqb r r') eqn:Q; cbn [andb]; [|exact IH]); try specialize (F1 eq_refl).
  - inversion F1 as [|? ? E _]; subst. rewrite E. apply ole_refl.
  - inversion F1 as [|? ? E _]; subst. rewrite E. unfold insert_low. destruct (native_size A r <=? opw v); [apply ole_refl|].
    intros z. destruct (rcell e k r s x l) as [a|]; [|discriminate]. rewrite (IH a eq_refl). auto.
  - inversion F1 as [|? ? E1 F3]; subst. inversion F3 as [|? ? E2 F4]; subst. inversion F4 as [|? ? E3 _]; subst.
    unfold eager. rewrite E1, E2, E3. apply ole_refl.
  - assumption.
Qed.

(** Values fit the register. *)
Lemma okty_inr : forall e v r z, env_ok e -> tyok v -> okty (kd r) (v_ty v) -> pv e v = Some z -> inr (native_size A r) z.
Proof.
  intros e v r z E T [_ O] P. destruct (pv_some A e v z E T P) as [_ I]. unfold kd in O. cbn [nz] in O. unfold inr in *.
  pose proof (Z.pow_le_mono_r 2 (tsize (v_ty v)) (native_size A r) ltac:(lia) O). lia.
Qed.
Lemma atom_inr : forall e a z, env_ok e -> pv e (Val (aty A a) (ELeaf a)) = Some z -> inr (tsize (aty A a)) z.
Proof.
  intros e a z E P. unfold pv, vev in P. cbn in P. destruct (E a) as [T W]. destruct (e a) as [t z'|t]; [|discriminate]. injection P as ->.
  cbn in T, W. subst t. exact W.
Qed.
Lemma nty_size : forall r, tsize (nty A r) = native_size A r.
Proof. intros [i|i|i]; unfold nty, native_size, native_facet; [reflexivity| |]; [destruct (i =? 2); reflexivity|destruct A; reflexivity]. Qed.
Lemma slot_inr : forall e k r z, env_ok e -> pv e (slot_val k r) = Some z -> inr (native_size A r) z.
Proof. intros e k r z E P. rewrite <- nty_size. exact (atom_inr e (ASlot k r (nty A r)) z E P). Qed.
Lemma phi_inr : forall e b r z, env_ok e -> pv e (phi_val A b r) = Some z -> inr (native_size A r) z.
Proof. intros e b r z E P. rewrite <- nty_size. exact (atom_inr e (APhi b r) z E P). Qed.
Lemma insert_inr : forall r s o x z, 0 <= s <= native_size A r -> (forall z, o = Some z -> inr (native_size A r) z) -> (forall z, x = Some z -> inr s z) ->
  insert_low (native_size A r) s o x = Some z -> inr (native_size A r) z.
Proof.
  intros r s o x z L O X. unfold insert_low. destruct (Z.leb_spec (native_size A r) s).
  - intros ->. assert (s = native_size A r) as -> by lia. auto.
  - destruct o as [o|]; [|discriminate]. destruct x as [x|]; [|discriminate]. intros E. injection E as <-.
    specialize (O o eq_refl). specialize (X x eq_refl). rewrite <- Z.shiftr_div_pow2, <- Z.shiftl_mul_pow2 by lia. exact (ov_inr (native_size A r) s o x L O X).
Qed.
Lemma mlog_inr : forall e l k r z, env_ok e -> wflog l -> mlog e l k r = Some z -> inr (native_size A r) z.
Proof.
  intros e l k r z E. revert k r z. induction l as [|[o x] l IH]; intros k r z W M; [discriminate|]. destruct W as [W WO]. specialize (IH).
  assert (I0 : forall k r z, mlog e l k r = Some z -> inr (native_size A r) z) by (intros; eapply IH; eassumption).
  cbn [mlog] in M. destruct o as [i|k' r' v|k' r' v|k' r' tr v1 v2 v3|k' r' u t|c k' r' f]; cbn [spec1 wfop] in *; unfold upd in M.
  - destruct i as [|p|b]; (destruct (Nat.eqb k (nlog l)); [|eapply I0; eassumption]); [discriminate|eapply I0; eassumption|eapply phi_inr; eassumption].
  - destruct (Nat.eqb k' k && areg_eqb r' r) eqn:Q; [|eapply I0; eassumption]. apply andb_prop in Q. destruct Q as [_ Q]. apply areg_eqb_eq in Q. subst r'.
    destruct WO as (_ & _ & T & O). eapply okty_inr; eassumption.
  - destruct (Nat.eqb k' k && areg_eqb r' r) eqn:Q; [|eapply I0; eassumption]. apply andb_prop in Q. destruct Q as [_ Q]. apply areg_eqb_eq in Q. subst r'.
    destruct WO as (_ & _ & T & O). eapply insert_inr; [| | |exact M].
    + pose proof (okty_okw _ _ O) as OW. apply okw_pos in OW. destruct O as [_ O]. unfold kd in O. cbn [nz] in O. unfold opw. lia.
    + intros. eapply I0. eassumption.
    + intros z' P. exact (proj2 (pv_some A e v z' E T P)).
  - destruct (Nat.eqb k' k && areg_eqb r' r) eqn:Q; [|eapply I0; eassumption]. apply andb_prop in Q. destruct Q as [_ Q]. apply areg_eqb_eq in Q. subst r'.
    destruct WO as (_ & _ & O & F). destruct (lazy_flag A tr (opw v1) v1 v2 v3 F) as (v & LV & TV & YV & PV). rewrite <- YV in O.
    eapply okty_inr; [exact E|exact TV|exact O|]. rewrite PV; assumption.
  - destruct (Nat.eqb k' k && areg_eqb r' r) eqn:Q; [|eapply I0; eassumption]. apply andb_prop in Q. destruct Q as [_ Q]. apply areg_eqb_eq in Q. subst r'.
    destruct WO as (_ & _ & -> & ->). eapply slot_inr; eassumption.
  - eapply I0; eassumption.
Qed.

(** ** Atoms *)
(** The values written to or read from a file satisfy [P file]. *)
Definition lat (P : nat -> atom -> Prop) (l : log) : Prop :=
  Forall (fun ox : rop * option value => forall k, file_of (fst ox) = Some k ->
    Forall (vin (P k)) (opvals (fst ox)) /\ match snd ox with Some v => vin (P k) v | None => True end) l.
Lemma lat_mono : forall (P Q : nat -> atom -> Prop) l, (forall k a, P k a -> Q k a) -> lat P l -> lat Q l.
Proof.
  intros P Q l I L. eapply Forall_impl; [|exact L]. intros [o x] X k F. destruct (X k F) as [X1 X2]. split.
  - eapply Forall_impl; [|exact X1]. intros v. apply vin_mono. apply I.
  - destruct x; [|exact Logic.I]. eapply vin_mono; [apply I|exact X2].
Qed.
Lemma lat_agree : forall (P : nat -> atom -> Prop) l e e' k, lat P l -> (forall a, P k a -> e a = e' a) ->
  Forall (fun ox : rop * option value => file_of (fst ox) = Some k -> Forall (fun v => pv e v = pv e' v) (opvals (fst ox))) l.
Proof.
  intros P l e e' k L AG. eapply Forall_impl; [|exact L]. intros [o x] X F. destruct (X k F) as [X1 _]. eapply Forall_impl; [|exact X1].
  intros v V. apply pv_vin. eapply vin_mono; [|exact V]. exact AG.
Qed.

Variable own : nat -> nat.
Variable first : nat -> option nat.
(** The atom belongs to the code of file [k] or of an earlier one. *)
Definition oldatom (k : nat) (a : atom) : Prop :=
  match a with
  | AVar n _ => (own n <= k)%nat
  | APhi b _ => exists j, first b = Some j /\ (j <= k)%nat
  | ASlot u _ _ => (u <= k)%nat
  end.
Lemma aok_old : forall h k a, aok A own first h k a -> oldatom k a.
Proof. intros h k [n t|b r|u r t]; cbn; tauto. Qed.
Lemma mlog_dep : forall l e e', wflog l -> lat oldatom l -> (forall k b, ilog l k = InitPhi b -> first b = Some k) ->
  forall k r, (k < nlog l)%nat -> (forall a, oldatom k a -> e a = e' a) -> mlog e l k r = mlog e' l k r.
Proof.
  intros l e e' W LA IP k. induction k as [k IH] using (well_founded_induction lt_wf). intros r L AG.
  rewrite !mlog_cell by assumption.
  assert (BB : mbase e l k r = mbase e' l k r).
  { unfold mbase. destruct (ilog l k) as [|p|b] eqn:IL; [reflexivity| |].
    - destruct (ilog_lt _ _ _ W IL). apply IH; [assumption|lia|]. intros a O. apply AG. destruct a; cbn in *; try lia.
      destruct O as (j & J1 & J2). exists j. split; [assumption|lia].
    - apply pv_vin. cbn. apply AG. cbn. exists k. split; [apply IP; assumption|lia]. }
  assert (SS : pv e (slot_val k r) = pv e' (slot_val k r)) by (apply pv_vin; cbn; apply AG; cbn; lia).
  rewrite BB, SS. pose proof (lat_agree _ l e e' k LA AG) as F.
  assert (X : ole (rcell e k r (pv e' (slot_val k r)) (mbase e' l k r) l) (rcell e' k r (pv e' (slot_val k r)) (mbase e' l k r) l)) by (apply rcell_mono; [apply ole_refl|apply ole_refl|assumption]).
  assert (Y : ole (rcell e' k r (pv e' (slot_val k r)) (mbase e' l k r) l) (rcell e k r (pv e' (slot_val k r)) (mbase e' l k r) l)).
  { apply rcell_mono; [apply ole_refl|apply ole_refl|]. eapply Forall_impl; [|exact F]. intros [o x] Q Q1. specialize (Q Q1).
    eapply Forall_impl; [|exact Q]. intros v. cbn. auto. }
  destruct (rcell e k r _ _ l) as [a|] eqn:Q1.
  - symmetry. apply X. reflexivity.
  - destruct (rcell e' k r _ _ l) as [a|]; [|reflexivity]. specialize (Y a eq_refl). discriminate.
Qed.

(** A file that has a child is final. *)
Lemma mlog_final : forall e l2 l1 p k r, wflog (l2 ++ l1) -> ilog l1 k = InitParent p -> mlog e (l2 ++ l1) p r = mlog e l1 p r.
Proof.
  intros e. induction l2 as [|[o x] l2 IH]; intros l1 p k r W IL; [reflexivity|]. cbn [app] in *. destruct W as [W WO].
  cbn [mlog]. rewrite <- (IH l1 p k r W IL).
  assert (W1 : wflog l1) by (clear -W; induction l2 as [|[o x] l2 IH]; [assumption|apply IH; exact (proj1 W)]).
  assert (IL2 : ilog (l2 ++ l1) k = InitParent p).
  { clear -W W1 IL. induction l2 as [|[o x] l2 IH]; [assumption|]. cbn [app] in *. destruct W as [W WO]. specialize (IH W).
    destruct o; cbn [ilog]; try assumption. destruct (Nat.eqb_spec k (nlog (l2 ++ l1))) as [->|Q]; [|assumption].
    destruct (ilog_lt _ _ _ W IH). lia. }
  destruct (ilog_lt _ _ _ W IL2) as [LP LK].
  destruct o as [i|k' r' v|k' r' v|k' r' tr v1 v2 v3|k' r' u t|c k' r' f].
  - apply mlog_other; [discriminate|]. intros; lia.
  - apply mlog_other; [|discriminate]. cbn. intros E. injection E as ->. exact (proj1 (proj2 WO) k IL2).
  - apply mlog_other; [|discriminate]. cbn. intros E. injection E as ->. exact (proj1 (proj2 WO) k IL2).
  - apply mlog_other; [|discriminate]. cbn. intros E. injection E as ->. exact (proj1 (proj2 WO) k IL2).
  - apply mlog_other; [|discriminate]. cbn. intros E. injection E as ->. exact (proj1 (proj2 WO) k IL2).
  - reflexivity.
Qed.
End Log.
