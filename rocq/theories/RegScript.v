(** Sequences of operations on the register files of a function, and their
    specification as plain maps from registers to bit strings. *)

From Coq Require Import ZArith Lia ZifyBool List Bool.
From Verif Require Import Bits IR Facet Dsl RegFile RegFileOk.
Import ListNotations.
Open Scope Z_scope.

Section Script.
Context `{FpuOps}.
Variable A : arch.
Notation kd := (kd A).
Notation env_ok := (env_ok A).
Notation tyok := (tyok A).
Notation den := (den A).

(** ** Operations *)
(** The calls of regfile.h:98-157 that create, write and read register files.
    [ONew] creates the next file (basicblock.cc:58-70: from the predecessor, with
    PHI nodes, or, for the entry block, empty). *)
Inductive rop :=
| ONew (i : rinit)
| OSet (k : nat) (r : areg) (v : value)
| OMerge (k : nat) (r : areg) (v : value)
| OLazy (k : nat) (r : areg) (tr : transform) (v1 v2 v3 : value)
| OLoad (k : nat) (r : areg) (u : nat) (t : ty)
| OGet (cache : bool) (k : nat) (r : areg) (f : facet).

Definition h0 : rfs := Rfs (fun _ _ => RVals false []) (fun _ => InitNone) (fun _ _ => false) [] [].
(** regfile.cc:219-225 InitWith*: [n] is a file without values. *)
Definition with_init (h : rfs) (n : nat) (i : rinit) : rfs :=
  Rfs (h_reg h) (fun k => if Nat.eqb k n then i else h_init h k) (h_dirty h) (h_phis h) (h_loads h).

Definition exec1 (s : nat * rfs) (o : rop) : option (nat * rfs * option value) :=
  let (n, h) := s in
  match o with
  | ONew i => Some (S n, with_init h n i, None)
  | OSet k r v => Some (n, set_full h k r v, None)
  | OMerge k r v => opt h <- merge h k r v; Some (n, h, None)
  | OLazy k r tr v1 v2 v3 => Some (n, set_lazy h k r tr v1 v2 v3, None)
  | OLoad k r u t => Some (n, set_load h k r u t, None)
  | OGet cache k r f => opt (h, v) <- get_reg A cache h k r f; Some (n, h, Some v)
  end.
(** Values returned by the reads, in order. *)
Fixpoint exec (s : nat * rfs) (l : list rop) : option (nat * rfs * list value) :=
  match l with
  | [] => Some (s, [])
  | o :: l' => opt (s, x) <- exec1 s o;
               opt (s, vs) <- exec s l';
               Some (s, match x with Some v => v :: vs | None => vs end)
  end.

(** ** Specification *)
(** The contents of all registers under one assignment of the atoms. *)
Definition regmap := nat -> areg -> option Z.
Definition upd (M : regmap) (k : nat) (r : areg) (x : option Z) : regmap :=
  fun k' r' => if Nat.eqb k k' && areg_eqb r r' then x else M k' r'.
(** Low [s] bits replaced; a write of the whole register replaces everything. *)
Definition insert_low (n s : Z) (o x : option Z) : option Z :=
  if n <=? s then x
  else match o, x with Some o, Some x => Some (o / 2^s * 2^s + x) | _, _ => None end.
(** Value of a flag computed when it is written (not when it is read). *)
Definition eager (e : env) (tr : transform) (w : Z) (v1 v2 v3 : value) : option Z :=
  flag_val tr w (pv e v1) (pv e v2) (pv e v3).
Definition opw (v : value) : Z := tsize (v_ty v).

Definition spec1 (e : env) (M : regmap) (n : nat) (o : rop) : regmap :=
  match o with
  | ONew InitNone => fun k r => if Nat.eqb k n then None else M k r
  | ONew (InitParent p) => fun k r => if Nat.eqb k n then M p r else M k r
  | ONew (InitPhi b) => fun k r => if Nat.eqb k n then pv e (phi_val A b r) else M k r
  | OSet k r v => upd M k r (pv e v)
  | OMerge k r v => upd M k r (insert_low (native_size A r) (opw v) (M k r) (pv e v))
  | OLazy k r tr v1 v2 v3 => upd M k r (eager e tr (opw v1) v1 v2 v3)
  | OLoad k r u t => upd M k r (pv e (Val t (ELeaf (ASlot u r t))))
  | OGet _ _ _ _ => M
  end.
Definition next (n : nat) (o : rop) : nat := match o with ONew _ => S n | _ => n end.

(** What each read of a script must return: register bits of the requested facet,
    [None] where the register's content is not defined (poison or never written). *)
Definition facet_of (f : facet) (o : option Z) : option Z :=
  match o with
  | Some z => Some (match f with I8H => z / 2^8 mod 2^8 | _ => z mod 2^(facet_size f) end)
  | None => None
  end.
Fixpoint spec (e : env) (M : regmap) (n : nat) (l : list rop) : list (option Z) :=
  match l with
  | [] => []
  | o :: l' => (match o with OGet _ k r f => [facet_of f (M k r)] | _ => [] end)
               ++ spec e (spec1 e M n o) (next n o) l'
  end.

(** ** Scripts that lifters produce *)
(** Static knowledge: number of files, registers that can be read, files that
    are the parent of another one (those are not written any more). *)
Record stat := Stat { t_n : nat; t_av : nat -> areg -> bool; t_par : nat -> bool }.
Definition stat0 : stat := Stat 0 (fun _ _ => false) (fun _ => false).

Definition ok_write (s : stat) (k : nat) (r : areg) (t : ty) : Prop :=
  (k < t_n s)%nat /\ t_par s k = false /\ okty (kd r) t.
Definition legal1 (s : stat) (o : rop) : Prop :=
  match o with
  | ONew (InitParent p) => (p < t_n s)%nat
  | ONew _ => True
  | OSet k r v | OMerge k r v => ok_write s k r (v_ty v) /\ tyok v
  | OLazy k r tr v1 v2 v3 => ok_write s k r (TInt (flag_width tr)) /\ flag_ops A tr (opw v1) v1 v2 v3
  | OLoad k r u t => ok_write s k r t
  | OGet _ k r f => (k < t_n s)%nat /\ t_av s k r = true /\ facet_ok (kd r) f
  end.
Definition updb (m : nat -> areg -> bool) (k : nat) (r : areg) (x : bool) : nat -> areg -> bool :=
  fun k' r' => if Nat.eqb k k' && areg_eqb r r' then x else m k' r'.
Definition stat1 (s : stat) (o : rop) : stat :=
  match o with
  | ONew i => Stat (S (t_n s))
      (fun k r => if Nat.eqb k (t_n s) then match i with InitNone => false | InitParent p => t_av s p r | InitPhi _ => true end
                  else t_av s k r)
      (fun k => match i with InitParent p => Nat.eqb k p || t_par s k | _ => t_par s k end)
  | OSet k r _ | OLazy k r _ _ _ _ | OLoad k r _ _ => Stat (t_n s) (updb (t_av s) k r true) (t_par s)
  | OMerge k r v => Stat (t_n s) (updb (t_av s) k r (t_av s k r || (opw v =? native_size A r))) (t_par s)
  | OGet _ _ _ _ => s
  end.
Fixpoint legal (s : stat) (l : list rop) : Prop :=
  match l with [] => True | o :: l' => legal1 s o /\ legal (stat1 s o) l' end.
Definition no_high (l : list rop) : Prop :=
  Forall (fun o => match o with OGet _ _ _ I8H => False | _ => True end) l.

(** ** Proof *)
Record inv (s : stat) (n : nat) (h : rfs) : Prop := {
  iv_n : t_n s = n;
  iv_wf : wf_h A h;
  iv_fresh : forall k r, (n <= k)%nat -> h_reg h k r = RVals false [] /\ h_init h k = InitNone;
  iv_par : forall k p, h_init h k = InitParent p -> (p < n)%nat /\ t_par s p = true;
  iv_av : forall k r, t_av s k r = true -> (k < n)%nat /\ avail A h k r;
}.
(** The register file refines the map. *)
Definition agree (e : env) (M : regmap) (h : rfs) : Prop := forall k r, ole (M k r) (den e h k r).

Lemma inv0 : inv stat0 0 h0.
Proof.
  split; try reflexivity; try discriminate.
  - split; [|discriminate]. intros k r. cbn. split; [exact I|discriminate].
  - intros; split; reflexivity.
Qed.
Lemma agree0 : forall e, agree e (fun _ _ => None) h0.
Proof. intros e k r z X. discriminate. Qed.

Lemma inv_leaf : forall s n h k, inv s n h -> t_par s k = false -> leaf h k.
Proof. intros s n h k I P k' X. destruct (iv_par _ _ _ I k' k X). congruence. Qed.

(** One write. *)
Lemma write_step : forall s n h h' k r x b,
  inv s n h -> (k < n)%nat -> same_frame A h h' k r ->
  (forall k' r', (n <= k')%nat -> h_reg h' k' r' = h_reg h k' r') ->
  (b = true -> avail A h' k r) ->
  inv (Stat (t_n s) (updb (t_av s) k r b) (t_par s)) n h' /\
  forall e M, env_ok e -> agree e M h -> ole (x e) (den e h' k r) -> agree e (upd M k r (x e)) h'.
Proof.
  intros s n h h' k r x b I L (W & HI & AV & FR) FN AB. split.
  - split; cbn [t_n t_av t_par].
    + apply (iv_n _ _ _ I).
    + assumption.
    + intros k' r' L'. rewrite HI, FN by assumption. apply (iv_fresh _ _ _ I). assumption.
    + rewrite HI. apply (iv_par _ _ _ I).
    + intros k' r' X. unfold updb in X. destruct (keq_dec k r k' r') as [[<- <-]|Q].
      * rewrite keq_refl in X. auto.
      * rewrite Q in X. destruct (iv_av _ _ _ I k' r' X). auto.
  - intros e M E AG X k' r'. unfold upd. destruct (keq_dec k r k' r') as [[<- <-]|Q].
    + rewrite keq_refl. assumption.
    + rewrite Q. eapply ole_trans; [apply AG|]. apply FR; [assumption|].
      destruct (Nat.eq_dec k' k) as [->|N]; [|left; assumption]. right. intros ->. rewrite keq_refl in Q. discriminate.
Qed.

Lemma with_init_ok : forall s n h i, inv s n h -> legal1 s (ONew i) ->
  inv (stat1 s (ONew i)) (S n) (with_init h n i) /\
  forall e M, env_ok e -> agree e M h -> agree e (spec1 e M n (ONew i)) (with_init h n i).
Proof.
  intros s n h i I L. pose proof (iv_n _ _ _ I) as N.
  assert (W : wf_h A (with_init h n i)).
  { split; [exact (proj1 (iv_wf _ _ _ I))|]. intros k p. cbn. destruct (Nat.eqb_spec k n) as [->|Q].
    - intros ->. cbn in L. lia.
    - apply (proj2 (iv_wf _ _ _ I)). }
  assert (DF : forall e k r, k <> n -> den e (with_init h n i) k r = den e h k r).
  { intros e k r. induction k as [k IH] using (well_founded_induction lt_wf). intros Q.
    rewrite (den_eq A e h k r (proj2 (iv_wf _ _ _ I))), (den_eq A e _ k r (proj2 W)). f_equal.
    unfold base_of. cbn. destruct (Nat.eqb_spec k n) as [|_]; [contradiction|].
    destruct (h_init h k) as [|p|b] eqn:HI; try reflexivity. apply IH.
    - exact (proj2 (iv_wf _ _ _ I) k p HI).
    - destruct (iv_par _ _ _ I k p HI). lia. }
  assert (AF : forall k r, avail A h k r -> k <> n -> avail A (with_init h n i) k r).
  { intros k r X. induction X as [k r X|k r uz p vs X Y|k r b X|k r p X _ IH]; intros Q.
    - apply av_set. exact X.
    - eapply av_nat; [exact X|assumption].
    - apply av_phi with b. cbn. destruct (Nat.eqb_spec k n); [contradiction|assumption].
    - apply av_par with p.
      + cbn. destruct (Nat.eqb_spec k n); [contradiction|assumption].
      + apply IH. destruct (iv_par _ _ _ I k p X). lia. }
  split; [split|].
  - cbn. congruence.
  - assumption.
  - intros k r Q. cbn. destruct (iv_fresh _ _ _ I k r ltac:(lia)) as [X Y]. split; [assumption|].
    destruct (Nat.eqb_spec k n); [lia|assumption].
  - intros k p. cbn. destruct (Nat.eqb_spec k n) as [->|Q].
    + intros ->. cbn in L. rewrite Nat.eqb_refl. cbn. split; [lia|reflexivity].
    + intros X. destruct (iv_par _ _ _ I k p X) as [X1 X2]. split; [lia|]. destruct i; rewrite ?X2, ?orb_true_r; reflexivity.
  - intros k r. cbn. rewrite N. destruct (Nat.eqb_spec k n) as [->|Q].
    + intros X. split; [lia|]. destruct i as [|p|b]; [discriminate| |].
      * destruct (iv_av _ _ _ I p r X) as [X1 X2]. apply av_par with p; [cbn; rewrite Nat.eqb_refl; reflexivity|]. apply AF; [assumption|lia].
      * apply av_phi with b. cbn. rewrite Nat.eqb_refl. reflexivity.
    + intros X. destruct (iv_av _ _ _ I k r X) as [X1 X2]. split; [lia|]. apply AF; assumption.
  - intros e M E AG k r. destruct (Nat.eqb_spec k n) as [->|Q].
    + assert (DN : den e (with_init h n i) n r = base_of A e (with_init h n i) n r).
      { rewrite (den_eq A e _ n r (proj2 W)). cbn. destruct (iv_fresh _ _ _ I n r ltac:(lia)) as [-> _]. reflexivity. }
      rewrite DN. unfold base_of. cbn [with_init h_init]. rewrite Nat.eqb_refl.
      destruct i as [|p|b]; cbn [spec1]; rewrite Nat.eqb_refl.
      * apply ole_refl.
      * rewrite DF by (cbn in L; lia). apply AG.
      * apply ole_refl.
    + rewrite DF by assumption. destruct i as [|p|b]; cbn [spec1]; (destruct (Nat.eqb_spec k n); [contradiction|apply AG]).
Qed.

Definition out_ok (e : env) (M : regmap) (o : rop) (x : option value) : Prop :=
  match o, x with
  | OGet _ k r f, Some v => v_ty v = facet_type f /\ ole (facet_of f (M k r)) (pv e v)
  | OGet _ _ _ _, None => False
  | _, Some _ => False
  | _, None => True
  end.

Lemma insert_low_bits : forall n s o x, 0 <= s -> insert_low n s o x = merge_bits n s o x.
Proof.
  intros n s o x P. unfold insert_low, merge_bits, ovo, omap2, ov. destruct (n <=? s); [reflexivity|].
  destruct o, x; try reflexivity. rewrite Z.shiftl_mul_pow2, Z.shiftr_div_pow2 by lia. reflexivity.
Qed.
Lemma facet_of_bits : forall f z, facet_of f (Some z) = Some (facet_bits f z).
Proof. intros f z. destruct f; try reflexivity. cbn [facet_of facet_bits]. rewrite Z.shiftr_div_pow2 by lia. reflexivity. Qed.

Definition post (s : stat) (n : nat) (h : rfs) (o : rop) (n' : nat) (h' : rfs) (x : option value) : Prop :=
  n' = next n o /\ inv (stat1 s o) n' h' /\
  forall e M, env_ok e -> agree e M h -> agree e (spec1 e M n o) h' /\ out_ok e M o x.

Lemma set_fresh : forall h k r g n, (k < n)%nat -> forall k' r', (n <= k')%nat -> h_reg (set_reg h k r g) k' r' = h_reg h k' r'.
Proof. intros h k r g n L k' r' L'. cbn. destruct (Nat.eqb_spec k k'); [lia|reflexivity]. Qed.

Lemma exec1_ok : forall s n h o, inv s n h -> legal1 s o ->
  match exec1 (n, h) o with
  | Some (n', h', x) => post s n h o n' h' x
  | None => exists c k r, o = OGet c k r I8H
  end.
Proof.
  intros s n h o I L. pose proof (iv_n _ _ _ I) as N. pose proof (iv_wf _ _ _ I) as W.
  destruct o as [i|k r v|k r v|k r tr v1 v2 v3|k r u t|c k r f]; cbn [exec1 legal1] in *.
  - destruct (with_init_ok s n h i I L) as [I' AG]. split; [reflexivity|]. split; [assumption|]. intros e M E X. split; [apply AG; assumption|exact Logic.I].
  - destruct L as [(L1 & L2 & L3) T]. destruct (set_full_ok A h k r v W (inv_leaf _ _ _ _ I L2) T L3) as (F & AV & D).
    destruct (write_step s n h (set_full h k r v) k r (fun e => pv e v) true I ltac:(lia) F) as [I' AG]; [|auto|].
    { intros. apply (set_fresh h k r _ n); lia. }
    split; [reflexivity|]. split; [exact I'|]. intros e M E X. split; [|exact Logic.I]. apply AG; try assumption.
    rewrite D by assumption. apply ole_refl.
  - destruct L as [(L1 & L2 & L3) T]. destruct (merge_ok A h k r v W (inv_leaf _ _ _ _ I L2) T L3) as (h' & ME & F & AV & D). rewrite ME.
    assert (FN : forall k' r', (n <= k')%nat -> h_reg h' k' r' = h_reg h k' r').
    { intros k' r' L'. unfold merge in ME. destruct (canonicalize_ok A h k r W) as (h1 & uz & vs & CE & K1 & G1 & FR & _).
      rewrite CE, G1 in ME. injection ME as <-. cbn. destruct (Nat.eqb_spec k k'); [lia|]. cbn. apply FR. lia. }
    assert (AV2 : (t_av s k r || (opw v =? native_size A r)) = true -> avail A h' k r).
    { intros X. apply orb_prop in X. destruct X as [X|X].
      - destruct F as (_ & _ & AL & _). apply AL. apply (iv_av _ _ _ I). assumption.
      - apply AV. apply Z.eqb_eq in X. exact X. }
    split; [reflexivity|]. split.
    + exact (proj1 (write_step s n h h' k r (fun e => None) _ I ltac:(lia) F FN AV2)).
    + intros e M E X. split; [|exact Logic.I].
      pose (x := fun e' : env => insert_low (native_size A r) (opw v) (M k r) (pv e v)).
      apply (proj2 (write_step s n h h' k r x _ I ltac:(lia) F FN AV2)); try assumption. subst x. cbn beta.
      rewrite insert_low_bits by (apply Z.lt_le_incl; apply okw_pos, (okty_okw (kd r)); assumption).
      eapply ole_trans; [|apply D; assumption]. specialize (X k r). unfold merge_bits. change (nz (kd r)) with (native_size A r).
      unfold opw. destruct (native_size A r <=? tsize (v_ty v)); [apply ole_refl|].
      intros z Z0. unfold ovo, omap2 in *. destruct (M k r) as [m|]; [|discriminate]. rewrite (X m eq_refl). exact Z0.
  - destruct L as [(L1 & L2 & L3) T]. destruct (lazy_flag A tr (opw v1) v1 v2 v3 T) as (v & LV & TV & YV & PV).
    rewrite <- YV in L3.
    destruct (set_lazy_ok A h k r tr v1 v2 v3 v W (inv_leaf _ _ _ _ I L2) LV TV L3) as (F & AV & D).
    destruct (write_step s n h (set_lazy h k r tr v1 v2 v3) k r (fun e => eager e tr (opw v1) v1 v2 v3) true I ltac:(lia) F) as [I' AG]; [|auto|].
    { intros. apply (set_fresh h k r _ n); lia. }
    split; [reflexivity|]. split; [exact I'|]. intros e M E X. split; [|exact Logic.I]. apply AG; try assumption.
    rewrite D, PV by assumption. apply ole_refl.
  - destruct L as (L1 & L2 & L3). destruct (set_load_ok A h k r u t W (inv_leaf _ _ _ _ I L2) L3) as (F & AV & D).
    destruct (write_step s n h (set_load h k r u t) k r (fun e => pv e (Val t (ELeaf (ASlot u r t)))) true I ltac:(lia) F) as [I' AG]; [|auto|].
    { intros. apply (set_fresh h k r _ n); lia. }
    split; [reflexivity|]. split; [exact I'|]. intros e M E X. split; [|exact Logic.I]. apply AG; try assumption.
    rewrite D by assumption. apply ole_refl.
  - destruct L as (L1 & L2 & L3). destruct (iv_av _ _ _ I k r L2) as [_ AV].
    assert (R : (exists h' v, get_reg A c h k r f = Some (h', v) /\ read_ok A h h' k r f v) \/ (get_reg A c h k r f = None /\ f = I8H)).
    { destruct (facet_eq_dec f I8H) as [->|NH].
      - destruct (get_reg_high A c h k r W AV L3) as [X|[X _]]; auto.
      - left. apply get_reg_ok; assumption. }
    destruct R as [(h' & v & GE & K & T & Y & RD & FR)|[GE ->]]; rewrite GE; [|eauto].
    split; [reflexivity|]. split.
    + split; cbn [stat1].
      * assumption.
      * apply (kp_wf _ _ _ K).
      * intros k' r' L'. rewrite FR by lia. rewrite (kp_init _ _ _ K). apply (iv_fresh _ _ _ I). assumption.
      * rewrite (kp_init _ _ _ K). apply (iv_par _ _ _ I).
      * intros k' r' X. destruct (iv_av _ _ _ I k' r' X) as [X1 X2]. split; [assumption|]. apply (kp_av _ _ _ K). assumption.
    + intros e M E X. cbn [spec1 out_ok]. split; [|split; [assumption|]].
      * intros k' r'. eapply ole_trans; [apply X|]. apply (kp_ref _ _ _ K). assumption.
      * intros z Z0. destruct (M k r) as [m|] eqn:MK; [|discriminate]. rewrite facet_of_bits in Z0. injection Z0 as <-.
        apply RD; [assumption|]. apply X. assumption.
Qed.

(** All reads of a script return what the specification says. *)
Definition reads_ok (e : env) (sp : list (option Z)) (vs : list value) : Prop :=
  Forall2 (fun o v => forall z, o = Some z -> pv e v = Some z) sp vs.

Lemma exec_ok : forall l s n h, inv s n h -> legal s l ->
  match exec (n, h) l with
  | Some (_, vs) => forall e M, env_ok e -> agree e M h -> reads_ok e (spec e M n l) vs
  | None => ~ no_high l
  end.
Proof.
  induction l as [|o l IH]; intros s n h I L; cbn [exec].
  - intros. constructor.
  - destruct L as [L1 L2]. pose proof (exec1_ok s n h o I L1) as X.
    destruct (exec1 (n, h) o) as [[[n' h'] x]|].
    + destruct X as (N' & I' & AG). specialize (IH _ n' h' I' L2). destruct (exec (n', h') l) as [[s' vs]|].
      * intros e M E HA. destruct (AG e M E HA) as [A1 A2]. specialize (IH e _ E A1). cbn [spec]. rewrite <- N'.
        destruct o; destruct x; cbn [out_ok] in A2; try contradiction; cbn [app]; try exact IH.
        constructor; [exact (proj2 A2)|exact IH].
      * intros NH. apply IH. inversion NH; assumption.
    + destruct X as (c & k & r & ->). intros NH. inversion NH; assumption.
Qed.
End Script.
