(** Lowering keeps to what the register file supports, and never touches a register
    file, or its code, again once its block has ended or another one is in use. *)

From Coq Require Import ZArith Lia ZifyBool List Bool Arith Cantor.
From Verif Require Import Bits IR IrMono IrWf Facet Dsl RegFile RegFileOk RegScript Layout Cfg CfgHeap CfgLog CfgBuild CfgSem Decode LiftFn Lower.
Import ListNotations.
Open Scope Z_scope.

Lemma okwb_ok : forall w, okwb w = true -> okw w.
Proof. intros w E. unfold okwb in E. cbn [existsb] in E. unfold okw. lia. Qed.
Lemma okscalarb_ok : forall t, okscalarb t = true -> okscalar t.
Proof. intros t E. destruct t; cbn in *; try discriminate; try exact I. apply okwb_ok. assumption. Qed.
Lemma oktyb_ok : forall n t, oktyb n t = true -> okty n t.
Proof.
  intros n t E. unfold oktyb in E. apply andb_true_iff in E. destruct E as [E1 E2]. split; [|lia].
  assert (NB : negb (nb n) = true -> nb n = false) by (destruct (nb n); [discriminate|reflexivity]).
  destruct t; repeat (apply andb_true_iff in E1; let X := fresh "X" in destruct E1 as [E1 X]); try (apply okwb_ok; assumption); try (apply NB; assumption).
  - split; [lia|assumption].
  - split; [apply NB; assumption|]. split; [lia|]. split; [apply okscalarb_ok|apply okwb_ok]; assumption.
Qed.
Lemma facet_okb_ok : forall n f, facet_okb n f = true -> facet_ok n f.
Proof.
  intros n f E. destruct f; cbn [facet_okb facet_ok] in *; try discriminate; try (apply oktyb_ok; exact E); try lia.
  all: try (apply andb_true_iff in E; destruct E as [E1 E2]; split; [lia|destruct (nb n); [reflexivity|discriminate]]).
  all: try (rewrite E; reflexivity).
Qed.
Lemma is_var_eq : forall v, is_var v = true -> exists n, v = Val (v_ty v) (ELeaf (AVar n (v_ty v))).
Proof.
  intros [t e] E. unfold is_var in E. cbn [v_e v_ty] in *. destruct e as [[n u|b r|u r u']|t' z|t'|o a|o a b|o a b d|a b d]; try discriminate.
  apply ty_eqb_eq in E. subst u. exists n. reflexivity.
Qed.

Section Ok.
Context `{FpuOps}.
Variable c : cenv.
Notation A := (c_arch c).
Variable Ins : Type.
Variable ds : dst Ins.
Variable a0 : Z.
Variable cfold : nat -> exp atom -> option bool.
Variable gcache : nat -> bool.
Ltac lia := try clear cfold; try clear gcache; Lia.lia.
Notation cop1 := (cop1 c).
Notation low := (low c gcache).
Notation lstm := (lstm c gcache).
Notation lstms := (lstms c gcache).
Notation rblk := (rblk c Ins ds a0).
Notation built := (built A own).
Notation BI := (BI A own).

Lemma is_var_tyok : forall v, is_var v = true -> tyok A v.
Proof.
  intros v E. destruct (is_var_eq v E) as [n Q]. intros e EO. destruct (EO (AVar n (v_ty v))) as [T W].
  exists (e (AVar n (v_ty v))). rewrite Q at 1. split; [reflexivity|]. split; [exact T|exact W].
Qed.
Lemma mappedb_ok : forall r, mappedb c r = true -> mapped A r.
Proof.
  intros r E. unfold mappedb in E. apply existsb_exists in E. destruct E as (x & I1 & E). apply areg_eqb_eq in E. subst x. exact I1.
Qed.
Lemma flag_opsb_ok : forall tr v1 v2 v3, flag_opsb tr v1 v2 v3 = true -> flag_ops A tr (opw v1) v1 v2 v3.
Proof.
  intros tr v1 v2 v3 E. unfold flag_opsb in E. unfold opw.
  assert (OK : forall v, is_var v && ty_eqb (v_ty v) (TInt (tsize (v_ty v1))) = true -> tyok A v /\ v_ty v = TInt (tsize (v_ty v1))).
  { intros v X. apply andb_true_iff in X. destruct X as [X1 X2]. split; [apply is_var_tyok; assumption|apply ty_eqb_eq; assumption]. }
  destruct tr; cbn [flag_ops]; repeat (apply andb_true_iff in E; let X := fresh "X" in destruct E as [E X]);
    repeat match goal with |- _ /\ _ => split end; try lia; try (apply OK; rewrite ?E, ?X, ?X0, ?X1, ?X2, ?X3, ?X4, ?X5; reflexivity);
    try (apply is_var_tyok; assumption); try (apply ty_eqb_eq; assumption).
Qed.
Lemma wtypedb_ok : forall w, wtypedb c w = true -> wtyped A w.
Proof.
  intros w E. destruct w; cbn [wtypedb wtyped] in *.
  - apply andb_true_iff in E. destruct E. split; [apply is_var_tyok|apply oktyb_ok]; assumption.
  - apply andb_true_iff in E. destruct E. split; [apply is_var_tyok|apply oktyb_ok]; assumption.
  - apply andb_true_iff in E. destruct E. split; [apply oktyb_ok|apply flag_opsb_ok]; assumption.
  - apply facet_okb_ok. assumption.
Qed.
Lemma roomb_ok : forall f t, roomb f t = true -> target_room f t.
Proof.
  intros f t E. unfold roomb in E. apply andb_true_iff in E. destruct E as [E1 E2]. split; [lia|].
  destruct (f_max f t); [lia|]. destruct (f_first f t); [discriminate|reflexivity].
Qed.
Lemma is_nil_eq : forall T (l : list T), is_nil l = true -> l = [].
Proof. intros T [|x l] E; [reflexivity|discriminate]. Qed.
Lemma clegalb_ok : forall f o, clegalb c f o = true -> clegal A own f o.
Proof.
  intros f o E. destruct o as [mx| |b seal|b w|b|b|b t|b t o]; cbn [clegalb clegal] in *.
  - exact I.
  - lia.
  - repeat (apply andb_true_iff in E; let X := fresh "X" in destruct E as [E X]).
    split; [lia|]. split; [destruct (f_first f b); [discriminate|reflexivity]|]. split; [lia|].
    intros ->. cbn [negb orb] in X. destruct (f_max f b); [discriminate|reflexivity].
  - repeat (apply andb_true_iff in E; let X := fresh "X" in destruct E as [E X]).
    split; [lia|]. split; [apply is_nil_eq; assumption|]. split; [apply mappedb_ok; assumption|]. split; [apply wtypedb_ok; assumption|].
    intros k K. rewrite K in X. rewrite forallb_forall in X. apply Forall_forall. intros v IV. specialize (X v IV).
    unfold ownb in X. unfold vin. destruct (v_e v) as [[n u|b' r|u r u']|t' z|t'|o a|o a b'|o a b' d|a b' d]; try discriminate. cbn. lia.
  - apply andb_true_iff in E. destruct E. split; [lia|apply is_nil_eq; assumption].
  - apply andb_true_iff in E. destruct E. split; [lia|apply is_nil_eq; assumption].
  - apply andb_true_iff in E. destruct E. split; [lia|apply roomb_ok; assumption].
  - repeat (apply andb_true_iff in E; let X := fresh "X" in destruct E as [E X]). split; [lia|]. split; apply roomb_ok; assumption.
Qed.

Lemma cop1_inv : forall m o m', cop1 m o = Some m' -> exists f', clegal A own (m_f m) o /\ cexec1 A (m_f m) o = Some f' /\ m' = with_f m f'.
Proof.
  intros m o m' E. unfold Lower.cop1 in E. destruct (clegalb c (m_f m) o) eqn:L; [|discriminate].
  destruct (cexec1 A (m_f m) o) as [f'|] eqn:X; [|discriminate]. injection E as <-. exists f'. split; [apply clegalb_ok; assumption|]. auto.
Qed.
Lemma cop1_built : forall m o m', cop1 m o = Some m' -> built (m_f m) -> built (m_f m').
Proof. intros m o m' E B. destruct (cop1_inv _ _ _ E) as (f' & L & X & ->). econstructor; eassumption. Qed.

(** ** Extension *)
Definition closed (f : fn) (k : nat) : Prop := (k < f_n f)%nat /\ forall b, f_file f b = Some k -> f_succs f b <> [].
Record fext (f f' : fn) : Prop := {
  fe_log : exists l2, f_log f' = l2 ++ f_log f /\ forall k, closed f k -> forall ox, In ox l2 -> file_of (fst ox) <> Some k;
  fe_n : (f_n f <= f_n f')%nat;
  fe_nb : (f_nb f <= f_nb f')%nat;
  fe_bb : forall k, (k < f_n f)%nat -> f_bb f' k = f_bb f k;
  fe_first : forall b k, f_first f b = Some k -> f_first f' b = Some k;
  fe_succs : forall b, f_succs f b <> [] -> f_succs f' b = f_succs f b /\ f_file f' b = f_file f b;
  fe_packs : forall p, In p (f_packs f) -> In p (f_packs f');
  fe_closed : forall k, closed f k -> closed f' k;
}.
Record ext (m m' : em) : Prop := {
  ex_f : fext (m_f m) (m_f m');
  ex_code : forall k, exists l2, m_code m' k = l2 ++ m_code m k /\ (closed (m_f m) k -> l2 = []);
  ex_term : forall k, closed (m_f m) k -> m_term m' k = m_term m k;
  ex_blk : forall x, In x (m_blk m) -> In x (m_blk m');
  ex_pcx : forall b, f_succs (m_f m) b <> [] -> m_pcx m' b = m_pcx m b;
  ex_fold : forall x, In x (m_fold m) -> In x (m_fold m');
  ex_nblk : forall x, In x (m_blk m') -> In x (m_blk m) \/ (f_nb (m_f m) <= snd x)%nat;
}.
Lemma fext_refl : forall f, fext f f.
Proof. clear cfold gcache. intros f. split; try tauto; try lia; auto. exists []. split; [reflexivity|]. intros k _ ox []. Qed.
Lemma fext_trans : forall a b d, fext a b -> fext b d -> fext a d.
Proof.
  intros a b d X Y. split.
  - destruct (fe_log _ _ X) as (l1 & E1 & N1). destruct (fe_log _ _ Y) as (l2 & E2 & N2). exists (l2 ++ l1).
    split; [rewrite E2, E1, app_assoc; reflexivity|]. intros k C ox I0. apply in_app_or in I0. destruct I0 as [I0|I0]; [|apply N1; assumption].
    apply N2; [|assumption]. apply (fe_closed _ _ X). assumption.
  - pose proof (fe_n _ _ X). pose proof (fe_n _ _ Y). lia.
  - pose proof (fe_nb _ _ X). pose proof (fe_nb _ _ Y). lia.
  - intros k L. pose proof (fe_n _ _ X). rewrite (fe_bb _ _ Y) by lia. apply (fe_bb _ _ X). assumption.
  - intros b' k F. apply (fe_first _ _ Y), (fe_first _ _ X), F.
  - intros b' S. destruct (fe_succs _ _ X b' S) as [E1 E2]. destruct (fe_succs _ _ Y b') as [E3 E4]; [rewrite E1; assumption|]. split; congruence.
  - intros p I0. apply (fe_packs _ _ Y), (fe_packs _ _ X), I0.
  - intros k C. apply (fe_closed _ _ Y), (fe_closed _ _ X), C.
Qed.
Lemma ext_refl : forall m, ext m m.
Proof. intros m. split; auto using fext_refl. intros k. exists []. auto. Qed.
Lemma ext_trans : forall a b d, ext a b -> ext b d -> ext a d.
Proof.
  intros a b d X Y. pose proof (ex_f _ _ X) as XF. split.
  - eapply fext_trans; [exact XF|apply Y].
  - intros k. destruct (ex_code _ _ X k) as (l1 & E1 & N1). destruct (ex_code _ _ Y k) as (l2 & E2 & N2). exists (l2 ++ l1).
    split; [rewrite E2, E1, app_assoc; reflexivity|]. intros C. rewrite N1 by assumption. rewrite N2; [reflexivity|]. apply (fe_closed _ _ XF). assumption.
  - intros k C. rewrite (ex_term _ _ Y) by (apply (fe_closed _ _ XF); assumption). apply (ex_term _ _ X). assumption.
  - intros x I0. apply (ex_blk _ _ Y), (ex_blk _ _ X), I0.
  - intros b' S. destruct (fe_succs _ _ XF b' S) as [E1 E2]. rewrite (ex_pcx _ _ Y) by (rewrite E1; assumption). apply (ex_pcx _ _ X). assumption.
  - intros x I0. apply (ex_fold _ _ Y), (ex_fold _ _ X), I0.
  - intros x I0. destruct (ex_nblk _ _ Y x I0) as [I1|LE]; [exact (ex_nblk _ _ X x I1)|right]. pose proof (fe_nb _ _ XF). lia.
Qed.
(** Only the blocks and register files change. *)
Lemma ext_f : forall m f', fext (m_f m) f' -> ext m (with_f m f').
Proof. intros m f' X. split; auto. intros k. exists []. auto. Qed.

(** ** Positions *)
Record wf (m : em) : Prop := {
  wf_built : built (m_f m);
  wf_fresh : forall k, (f_n (m_f m) <= k)%nat -> m_code m k = [];
  wf_blk : NoDup (map fst (m_blk m));
}.
Record posn (q : loc) (m : em) : Prop := {
  pn_wf : wf m;
  pn_file : f_file (m_f m) (x_b q) = Some (x_k q);
  pn_succs : f_succs (m_f m) (x_b q) = [];
}.
Lemma pn_built : forall q m, posn q m -> built (m_f m).
Proof. intros q m P. apply (pn_wf _ _ P). Qed.
Lemma posn_open : forall q m, posn q m -> ~ closed (m_f m) (x_k q).
Proof. intros q m P [_ C]. apply (C _ (pn_file _ _ P)). apply P. Qed.
Lemma posn_bb : forall q m, posn q m -> f_bb (m_f m) (x_k q) = x_b q /\ (x_k q < f_n (m_f m))%nat /\ (x_b q < f_nb (m_f m))%nat.
Proof.
  intros q m P. destruct (built_BI _ _ _ (pn_built _ _ P)) as [_ B]. destruct (st_file _ B _ _ (pn_file _ _ P)) as (X1 & X2 & X3 & _). auto.
Qed.

(** A register access. *)
Lemma creg_inv : forall q m w m', posn q m -> cop1 m (CReg (x_b q) w) = Some m' ->
  exists n h x, exec1 A (f_n (m_f m), f_h (m_f m)) (to_rop (x_k q) w) = Some (n, h, x) /\ mapped A (wreg w) /\ wtyped A w /\
  f_log (m_f m') = (to_rop (x_k q) w, x) :: f_log (m_f m) /\ same_shape (m_f m) (m_f m') /\ m' = with_f m (m_f m') /\ posn q m' /\ ext m m'.
Proof.
  intros q m w m' P E. pose proof (cop1_built _ _ _ E (pn_built _ _ P)) as BT. destruct (cop1_inv _ _ _ E) as (f' & L & X & ->). cbn [m_f with_f] in *.
  destruct (BI_reg _ _ _ _ _ _ (built_BI _ _ _ (pn_built _ _ P)) L X) as [_ SS]. pose proof SS as SS0.
  destruct SS0 as (S1 & S2 & S3 & S4 & S5 & S6 & S7 & S8 & S9 & S10).
  cbn [cexec1] in X. rewrite (pn_file _ _ P) in X. unfold do_rop in X.
  destruct (exec1 A (f_n (m_f m), f_h (m_f m)) (to_rop (x_k q) w)) as [[[n h] x]|] eqn:EX; [|discriminate]. injection X as Q.
  exists n, h, x. split; [reflexivity|]. split; [apply L|]. split; [apply L|].
  assert (LG : f_log f' = (to_rop (x_k q) w, x) :: f_log (m_f m)) by (rewrite <- Q; reflexivity).
  assert (CL : forall k, closed (m_f m) k -> closed f' k).
  { intros k [C1 C2]. split; [lia|]. rewrite S4, S6. assumption. }
  split; [exact LG|]. split; [exact SS|]. split; [reflexivity|]. split.
  - split; cbn [m_f with_f]; [|rewrite S4; apply P|rewrite S6; apply P].
    split; cbn [m_f with_f m_code m_blk]; [assumption|rewrite S1; apply (pn_wf _ _ P)|apply (pn_wf _ _ P)].
  - apply ext_f. split; rewrite ?S1, ?S2, ?S4, ?S6, ?S7, ?S8, ?S9; auto.
    exists [(to_rop (x_k q) w, x)]. split; [exact LG|]. intros k C ox [<-|[]]. cbn [fst].
    intro Y. apply (posn_open _ _ P). replace (x_k q) with k; [assumption|]. destruct w; injection Y as <-; reflexivity.
Qed.

(** An instruction. *)
Lemma emit_ext : forall q m d i, posn q m -> ext m (emit m (x_k q) d i) /\ posn q (emit m (x_k q) d i).
Proof.
  intros q m d i P. split; [|split; [|apply P|apply P]; split; [apply (pn_wf _ _ P)| |apply (pn_wf _ _ P)]; cbn [emit m_f m_code]; intros k L;
    unfold updn; destruct (Nat.eqb_spec (x_k q) k) as [<-|]; [destruct (posn_bb _ _ P); lia|apply (pn_wf _ _ P); assumption]]. split; cbn [m_f emit m_code m_term m_blk m_pcx m_fold]; auto using fext_refl.
  intros k. unfold updn. destruct (Nat.eqb_spec (x_k q) k) as [<-|N].
  - exists [i]. split; [reflexivity|]. intros C. destruct (posn_open _ _ P C).
  - exists []. auto.
Qed.

(** Only reads. *)
Definition gets (k : nat) (l : log) : Prop := forall ox, In ox l -> exists g r f, fst ox = OGet g k r f.
Record reads (q : loc) (m m' : em) : Prop := {
  rd_m : m' = with_f m (m_f m');
  rd_ext : ext m m';
  rd_posn : posn q m';
  rd_shape : same_shape (m_f m) (m_f m');
  rd_log : exists l2, f_log (m_f m') = l2 ++ f_log (m_f m) /\ gets (x_k q) l2;
}.
Lemma same_em : forall m, m = with_f m (m_f m).
Proof. intros []. reflexivity. Qed.
Lemma reads_refl : forall q m, posn q m -> reads q m m.
Proof.
  intros q m P. split; auto using ext_refl, same_em, same_shape_refl. exists []. split; [reflexivity|]. intros ox [].
Qed.
Lemma reads_trans : forall q a b d, reads q a b -> reads q b d -> reads q a d.
Proof.
  intros q a b d X Y. split.
  - rewrite (rd_m _ _ _ Y). rewrite (rd_m _ _ _ X). reflexivity.
  - eapply ext_trans; [apply X|apply Y].
  - apply Y.
  - eapply same_shape_trans; [apply X|apply Y].
  - destruct (rd_log _ _ _ X) as (l1 & E1 & G1). destruct (rd_log _ _ _ Y) as (l2 & E2 & G2). exists (l2 ++ l1).
    split; [rewrite E2, E1, app_assoc; reflexivity|]. intros ox I0. apply in_app_or in I0. destruct I0; auto.
Qed.

Lemma get_inv : forall q m r f m' v, posn q m -> get c gcache q m r f = Some (m', v) ->
  reads q m m' /\ mapped A r /\ tyok A v /\ v_ty v = facet_type f /\
  exists g, f_log (m_f m') = (OGet g (x_k q) r f, Some v) :: f_log (m_f m).
Proof.
  intros q m r f m' v P E. unfold get in E.
  destruct (Lower.cop1 c m (CReg (x_b q) (WGet (gcache (length (f_log (m_f m)))) r f))) as [m1|] eqn:C1; [|discriminate].
  destruct (creg_inv _ _ _ _ P C1) as (n & h & x & EX & MR & WT & LG & SS & MM & PN & EE). cbn [to_rop wreg wtyped] in *. rewrite LG in E.
  destruct x as [w|]; [|discriminate]. injection E as <- <-.
  destruct (built_BI _ _ _ (pn_built _ _ P)) as [CO B].
  destruct (co_inv _ _ _ _ _ _ _ _ CO) as (s & IV & AV & TP). destruct (posn_bb _ _ P) as (_ & KN & _).
  pose proof (iv_wf _ _ _ _ IV) as W. destruct (iv_av _ _ _ _ IV (x_k q) r (AV _ _ KN MR ltac:(auto))) as [_ AVR].
  cbn [exec1] in EX. set (gc := gcache (length (f_log (m_f m)))) in *.
  assert (RR : exists h' v', get_reg A gc (f_h (m_f m)) (x_k q) r f = Some (h', v') /\ read_ok A (f_h (m_f m)) h' (x_k q) r f v').
  { destruct (facet_eq_dec f I8H) as [->|NH].
    - destruct (get_reg_high A gc _ _ r W AVR WT) as [X|[X _]]; [exact X|]. rewrite X in EX. discriminate.
    - apply get_reg_ok; assumption. }
  destruct RR as (h' & v' & GE & RO). rewrite GE in EX. injection EX as <- <- <-. destruct RO as (_ & TY & VT & _).
  split; [|eauto].
  split; [exact MM|exact EE|exact PN|exact SS|]. exists [(OGet gc (x_k q) r f, Some v')]. split; [exact LG|].
  intros ox [<-|[]]. cbn. eauto.
Qed.

Lemma low_reads : forall q x m m' y t, posn q m -> low q m x = Some (m', y, t) -> reads q m m'.
Proof.
  intros q. induction x as [l|t0 z|t0|o a IHa|o a IHa b IHb|o a IHa b IHb d IHd|a IHa b IHb d IHd]; intros m m' y t P E; cbn [Lower.low] in E.
  - destruct l as [x|r f|off].
    + destruct (x_var q x); [|discriminate]. injection E as <- _ _. apply reads_refl. assumption.
    + destruct (sysb A r); [destruct f; try discriminate E; injection E as <- _ _; apply reads_refl; assumption|].
      destruct (get c gcache q m r f) as [[m1 v]|] eqn:G; [|discriminate]. injection E as <- _ _. apply (get_inv _ _ _ _ _ _ P G).
    + destruct (x_pc q); [|discriminate]. injection E as <- _ _. apply reads_refl. assumption.
  - destruct (twf t0); [|discriminate]. injection E as <- _ _. apply reads_refl. assumption.
  - destruct (twf t0); [|discriminate]. injection E as <- _ _. apply reads_refl. assumption.
  - destruct (low q m a) as [[[m1 a'] s1]|] eqn:L1; [|discriminate]. destruct (chk_ty (ty1 o s1)); [|discriminate]. injection E as <- _ _. eapply IHa; eassumption.
  - destruct (low q m a) as [[[m1 a'] s1]|] eqn:L1; [|discriminate]. pose proof (IHa _ _ _ _ P L1) as R1.
    destruct (low q m1 b) as [[[m2 b'] s2]|] eqn:L2; [|discriminate]. pose proof (IHb _ _ _ _ (rd_posn _ _ _ R1) L2) as R2.
    destruct (chk_ty (ty2 o s1 s2)); [|discriminate]. injection E as <- _ _. eapply reads_trans; eassumption.
  - destruct (low q m a) as [[[m1 a'] s1]|] eqn:L1; [|discriminate]. pose proof (IHa _ _ _ _ P L1) as R1.
    destruct (low q m1 b) as [[[m2 b'] s2]|] eqn:L2; [|discriminate]. pose proof (IHb _ _ _ _ (rd_posn _ _ _ R1) L2) as R2.
    destruct (low q m2 d) as [[[m3 d'] s3]|] eqn:L3; [|discriminate]. pose proof (IHd _ _ _ _ (rd_posn _ _ _ R2) L3) as R3.
    destruct (chk_ty (ty3 o s1 s2 s3)); [|discriminate]. injection E as <- _ _. eapply reads_trans; [eassumption|]. eapply reads_trans; eassumption.
  - destruct (low q m a) as [[[m1 a'] s1]|] eqn:L1; [|discriminate]. pose proof (IHa _ _ _ _ P L1) as R1.
    destruct (low q m1 b) as [[[m2 b'] s2]|] eqn:L2; [|discriminate]. pose proof (IHb _ _ _ _ (rd_posn _ _ _ R1) L2) as R2.
    destruct (low q m2 d) as [[[m3 d'] s3]|] eqn:L3; [|discriminate]. pose proof (IHd _ _ _ _ (rd_posn _ _ _ R2) L3) as R3.
    destruct (ty_eqb s1 (TInt 1) && ty_eqb s2 s3); [|discriminate]. injection E as <- _ _. eapply reads_trans; [eassumption|]. eapply reads_trans; eassumption.
Qed.
Lemma lowt_reads : forall q x m m' y t, posn q m -> lowt c gcache q m x t = Some (m', y) -> reads q m m' /\ low q m x = Some (m', y, t).
Proof.
  intros q x m m' y t P E. unfold lowt in E. destruct (low q m x) as [[[m1 x'] t']|] eqn:L1; [|discriminate].
  destruct (ty_eqb t' t) eqn:T; [|discriminate]. apply ty_eqb_eq in T. subst t'. injection E as <- <-.
  split; [|reflexivity]. eapply low_reads; eassumption.
Qed.
Lemma def_inv : forall q m x m' v, posn q m -> def c gcache q m x = Some (m', v) ->
  exists m1 y t, low q m x = Some (m1, y, t) /\ reads q m m1 /\ m' = emit m1 (x_k q) 1 (IDef (num m1 (x_k q) 0) t y) /\ v = vvar (num m1 (x_k q) 0) t /\
    posn q m' /\ ext m1 m'.
Proof.
  intros q m x m' v P E. unfold def in E. destruct (low q m x) as [[[m1 y] t]|] eqn:L1; [|discriminate]. injection E as <- <-.
  pose proof (low_reads _ _ _ _ _ _ P L1) as R1. exists m1, y, t. split; [reflexivity|]. split; [assumption|]. split; [reflexivity|]. split; [reflexivity|].
  destruct (emit_ext q m1 1 (IDef (num m1 (x_k q) 0) t y) (rd_posn _ _ _ R1)). auto.
Qed.
Lemma deft_inv : forall q m x t m' v, posn q m -> deft c gcache q m x t = Some (m', v) -> def c gcache q m x = Some (m', v) /\ v_ty v = t.
Proof.
  intros q m x t m' v P E. unfold deft in E. destruct (def c gcache q m x) as [[m1 v1]|]; [|discriminate].
  destruct (ty_eqb (v_ty v1) t) eqn:T; [|discriminate]. injection E as <- <-. split; [reflexivity|]. apply ty_eqb_eq. assumption.
Qed.
Lemma def_ext : forall q m x m' v, posn q m -> def c gcache q m x = Some (m', v) -> posn q m' /\ ext m m'.
Proof.
  intros q m x m' v P E. destruct (def_inv _ _ _ _ _ P E) as (m1 & y & t & _ & R1 & _ & _ & P1 & E1).
  split; [assumption|]. eapply ext_trans; [apply R1|assumption].
Qed.
Lemma deft_ext : forall q m x t m' v, posn q m -> deft c gcache q m x t = Some (m', v) -> posn q m' /\ ext m m'.
Proof. intros. eapply def_ext; [eassumption|]. eapply deft_inv; eassumption. Qed.
Lemma wr_ext : forall q m w m' q', posn q m -> wr c q m w = Some (m', q') -> q' = q /\ posn q m' /\ ext m m'.
Proof.
  intros q m w m' q' P E. unfold wr in E. destruct (Lower.cop1 c m (CReg (x_b q) w)) as [m1|] eqn:C1; [|discriminate]. injection E as <- <-.
  destruct (creg_inv _ _ _ _ P C1) as (n & h & x & _ & _ & _ & _ & _ & _ & PN & EE). auto.
Qed.
(** The position may move within the block. *)
Lemma posn_q : forall q q' m, posn q m -> x_b q' = x_b q -> x_k q' = x_k q -> posn q' m.
Proof. intros q q' m P B K. split; rewrite ?B, ?K; apply P. Qed.
Lemma emit_posn : forall q q' m d i, posn q m -> x_b q' = x_b q -> x_k q' = x_k q ->
  ext m (emit m (x_k q) d i) /\ posn q' (emit m (x_k q) d i).
Proof. intros q q' m d i P B K. destruct (emit_ext q m d i P). split; [assumption|]. eapply posn_q; eassumption. Qed.

Lemma fin4 : forall q q' m m1 m', posn q m' -> ext m m1 -> ext m1 m' -> x_b q' = x_b q -> x_k q' = x_k q ->
  posn q' m' /\ ext m m' /\ x_b q' = x_b q /\ x_k q' = x_k q.
Proof. intros q q' m m1 m' P E1 E2 B K. split; [eapply posn_q; eassumption|]. split; [eapply ext_trans; eassumption|]. auto. Qed.

Lemma lstm_ext : forall q m i m' q', posn q m -> lstm q m i = Some (m', q') -> posn q' m' /\ ext m m' /\ x_b q' = x_b q /\ x_k q' = x_k q.
Proof.
  intros q m i m' q' P E.
  destruct i as [x e|x t a|v a|x o a v|x y a k v|a v n|r e|r e|r tr t v1 v2 v3|a|e|e a1 a2|a|f|]; cbn [Lower.lstm] in E; try discriminate.
  - destruct (def c gcache q m e) as [[m1 v]|] eqn:D; [|discriminate]. injection E as <- <-. destruct (def_ext _ _ _ _ _ P D).
    eapply fin4; try eassumption; try apply ext_refl; reflexivity.
  - destruct (lowt c gcache q m a TPtr) as [[m1 a1]|] eqn:L1; [|discriminate]. destruct (bytes_ty t); [|discriminate]. injection E as <- <-. destruct (lowt_reads _ _ _ _ _ _ P L1) as [R1 _].
    match goal with |- context [emit m1 _ 1 ?i] => destruct (emit_posn q (with_x q x (vvar (num m1 (x_k q) 0) t)) m1 1 i (rd_posn _ _ _ R1) eq_refl eq_refl) end.
    eapply (fin4 q); [eapply posn_q; [eassumption|reflexivity..]|apply R1|assumption|reflexivity..].
  - destruct (low q m v) as [[[m1 v1] t1]|] eqn:L1; [|discriminate]. pose proof (low_reads _ _ _ _ _ _ P L1) as R1.
    destruct (lowt c gcache q m1 a TPtr) as [[m2 a1]|] eqn:L2; [|discriminate]. destruct (lowt_reads _ _ _ _ _ _ (rd_posn _ _ _ R1) L2) as [R2 _].
    injection E as <- <-. match goal with |- context [emit m2 _ 0 ?i] => destruct (emit_posn q q m2 0 i (rd_posn _ _ _ R2) eq_refl eq_refl) end.
    pose proof (reads_trans _ _ _ _ R1 R2) as R3. eapply (fin4 q); [eapply posn_q; [eassumption|reflexivity..]|apply R3|assumption|reflexivity..].
  - destruct (lowt c gcache q m a TPtr) as [[m1 a1]|] eqn:L1; [|discriminate]. destruct (lowt_reads _ _ _ _ _ _ P L1) as [R1 _].
    destruct (low q m1 v) as [[[m2 v1] t1]|] eqn:L2; [|discriminate]. pose proof (low_reads _ _ _ _ _ _ (rd_posn _ _ _ R1) L2) as R2.
    destruct (byte_w t1) as [w|]; [|discriminate]. injection E as <- <-.
    match goal with |- context [emit m2 _ 1 ?i] => destruct (emit_posn q (with_x q x (vvar (num m2 (x_k q) 0) (TInt w))) m2 1 i (rd_posn _ _ _ R2) eq_refl eq_refl) end.
    pose proof (reads_trans _ _ _ _ R1 R2) as R3. eapply (fin4 q); [eapply posn_q; [eassumption|reflexivity..]|apply R3|assumption|reflexivity..].
  - destruct (lowt c gcache q m a TPtr) as [[m1 a1]|] eqn:L1; [|discriminate]. destruct (lowt_reads _ _ _ _ _ _ P L1) as [R1 _].
    destruct (low q m1 k) as [[[m2 k1] t1]|] eqn:L2; [|discriminate]. pose proof (low_reads _ _ _ _ _ _ (rd_posn _ _ _ R1) L2) as R2.
    destruct (byte_w t1) as [w|]; [|discriminate].
    destruct (lowt c gcache q m2 v (TInt w)) as [[m3 v1]|] eqn:L3; [|discriminate]. destruct (lowt_reads _ _ _ _ _ _ (rd_posn _ _ _ R2) L3) as [R3 _].
    injection E as <- <-.
    match goal with |- context [emit m3 _ 2 ?i] => destruct (emit_posn q (with_x (with_x q x (vvar (num m3 (x_k q) 0) (TInt w))) y (vvar (num m3 (x_k q) 1) (TInt 1))) m3 2 i (rd_posn _ _ _ R3) eq_refl eq_refl) end.
    pose proof (reads_trans _ _ _ _ (reads_trans _ _ _ _ R1 R2) R3) as R4. eapply (fin4 q); [eapply posn_q; [eassumption|reflexivity..]|apply R4|assumption|reflexivity..].
  - destruct (lowt c gcache q m a TPtr) as [[m1 a1]|] eqn:L1; [|discriminate]. destruct (lowt_reads _ _ _ _ _ _ P L1) as [R1 _].
    destruct (lowt c gcache q m1 v (TInt 8)) as [[m2 v1]|] eqn:L2; [|discriminate]. destruct (lowt_reads _ _ _ _ _ _ (rd_posn _ _ _ R1) L2) as [R2 _].
    destruct (lowt c gcache q m2 n (TInt 64)) as [[m3 n1]|] eqn:L3; [|discriminate]. destruct (lowt_reads _ _ _ _ _ _ (rd_posn _ _ _ R2) L3) as [R3 _].
    injection E as <- <-. match goal with |- context [emit m3 _ 0 ?i] => destruct (emit_posn q q m3 0 i (rd_posn _ _ _ R3) eq_refl eq_refl) end.
    pose proof (reads_trans _ _ _ _ (reads_trans _ _ _ _ R1 R2) R3) as R4. eapply (fin4 q); [eapply posn_q; [eassumption|reflexivity..]|apply R4|assumption|reflexivity..].
  - destruct (def c gcache q m e) as [[m1 v]|] eqn:D; [|discriminate]. destruct (def_ext _ _ _ _ _ P D) as [P1 E1].
    destruct (wr_ext _ _ _ _ _ P1 E) as (-> & P2 & E2). eapply fin4; try eassumption; reflexivity.
  - destruct (def c gcache q m e) as [[m1 v]|] eqn:D; [|discriminate]. destruct (def_ext _ _ _ _ _ P D) as [P1 E1].
    destruct (wr_ext _ _ _ _ _ P1 E) as (-> & P2 & E2). eapply fin4; try eassumption; reflexivity.
  - destruct (deft c gcache q m v1 t) as [[m1 w1]|] eqn:D1; [|discriminate]. destruct (deft_ext _ _ _ _ _ _ P D1) as [P1 E1].
    assert (TWO : forall k, (opt (m, v2) <- deft c gcache q m1 v2 t; k m v2) = Some (m', q') -> exists m2 w2, posn q m2 /\ ext m m2 /\ k m2 w2 = Some (m', q')).
    { intros k X. destruct (deft c gcache q m1 v2 t) as [[m2 w2]|] eqn:D2; [|discriminate]. destruct (deft_ext _ _ _ _ _ _ P1 D2) as [P2 E2].
      exists m2, w2. split; [assumption|]. split; [eapply ext_trans; eassumption|assumption]. }
    assert (FIN : forall m2 w, posn q m2 -> ext m m2 -> wr c q m2 w = Some (m', q') -> posn q' m' /\ ext m m' /\ x_b q' = x_b q /\ x_k q' = x_k q).
    { intros m2 w P2 E2 X. destruct (wr_ext _ _ _ _ _ P2 X) as (-> & P3 & E3). eapply fin4; try eassumption; reflexivity. }
    destruct tr; try (eapply FIN; eassumption).
    + destruct (TWO _ E) as (m2 & w2 & P2 & E2 & X). eapply FIN; eassumption.
    + destruct (TWO _ E) as (m2 & w2 & P2 & E2 & X). destruct (deft c gcache q m2 v3 t) as [[m3 w3]|] eqn:D3; [|discriminate].
      destruct (deft_ext _ _ _ _ _ _ P2 D3) as [P3 E3]. eapply FIN; [exact P3| |exact X]. eapply ext_trans; eassumption.
    + destruct (TWO _ E) as (m2 & w2 & P2 & E2 & X). destruct (deft c gcache q m2 v3 t) as [[m3 w3]|] eqn:D3; [|discriminate].
      destruct (deft_ext _ _ _ _ _ _ P2 D3) as [P3 E3]. eapply FIN; [exact P3| |exact X]. eapply ext_trans; eassumption.
  - injection E as <- <-. eapply fin4; try apply ext_refl; try eassumption; reflexivity.
  - destruct (deft c gcache q m e (TInt 64)) as [[m1 v]|] eqn:D; [|discriminate]. injection E as <- <-. destruct (deft_ext _ _ _ _ _ _ P D).
    eapply fin4; try eassumption; try apply ext_refl; reflexivity.
  - destruct (deft c gcache q m e (TInt 1)) as [[m1 v]|] eqn:D; [|discriminate]. injection E as <- <-. destruct (deft_ext _ _ _ _ _ _ P D).
    eapply fin4; try eassumption; try apply ext_refl; reflexivity.
  - destruct (deft c gcache q m (ELeaf (DPc 0)) (TInt 64)) as [[m1 v]|] eqn:D; [|discriminate]. injection E as <- <-. destruct (deft_ext _ _ _ _ _ _ P D).
    eapply fin4; try eassumption; try apply ext_refl; reflexivity.
Qed.

(** ** Register files and blocks *)
Definition loads (k : nat) (l : log) : Prop := forall ox, In ox l -> exists r t, fst ox = OLoad k r k t.
Lemma do_loads : forall k rs f f', do_rops A f (map (fun '(r, fc) => OLoad k r k (facet_type fc)) rs) = Some f' ->
  (exists l2, f_log f' = l2 ++ f_log f /\ loads k l2) /\ f_n f' = f_n f /\ f_nb f' = f_nb f /\ f_max f' = f_max f /\ f_file f' = f_file f /\
  f_preds f' = f_preds f /\ f_succs f' = f_succs f /\ f_packs f' = f_packs f /\ f_first f' = f_first f /\ f_bb f' = f_bb f.
Proof.
  intros k. induction rs as [|[r fc] rs IH]; intros f f' E; cbn [map do_rops] in E.
  - injection E as <-. repeat split. exists []. split; [reflexivity|]. intros ox [].
  - unfold do_rop in E. cbn [exec1] in E. apply IH in E. destruct E as ((l2 & E1 & L2) & E). cbn [f_n f_nb f_max f_file f_preds f_succs f_packs f_first f_bb f_log] in *.
    split; [|exact E]. exists (l2 ++ [(OLoad k r k (facet_type fc), None)]). split; [rewrite E1, <- app_assoc; reflexivity|].
    intros ox I0. apply in_app_or in I0. destruct I0 as [I0|[<-|[]]]; [apply L2; assumption|]. cbn. eauto.
Qed.
(** A new register file for block [b]. *)
Lemma unpack_inv : forall f b f', unpack A f b = Some f' ->
  (exists l2 y, f_log f' = l2 ++ (ONew InitNone, y) :: f_log f /\ loads (f_n f) l2) /\ f_n f' = S (f_n f) /\ f_nb f' = f_nb f /\ f_max f' = f_max f /\
  f_file f' = updn (f_file f) b (Some (f_n f)) /\
  f_preds f' = f_preds f /\ f_succs f' = f_succs f /\ f_packs f' = f_packs f /\
  f_first f' = match f_first f b with None => updn (f_first f) b (Some (f_n f)) | _ => f_first f end /\ f_bb f' = updn (f_bb f) (f_n f) b.
Proof.
  intros f b f' E. unfold unpack in E. rewrite new_file_eq in E. apply do_loads in E. destruct E as ((l2 & E1 & L2) & E).
  split; [|exact E]. exists l2. eexists. split; [exact E1|exact L2].
Qed.
(** Adding a register file: what is closed stays as it is. *)
Lemma fext_file : forall f f' b, BI f -> f_succs f b = [] -> f_n f' = S (f_n f) -> f_nb f' = f_nb f ->
  (exists l2 y, f_log f' = l2 ++ y :: f_log f /\ loads (f_n f) l2 /\ exists i, fst y = ONew i) ->
  (forall b', f_file f' b' = if Nat.eqb b b' then Some (f_n f) else f_file f b') -> f_succs f' = f_succs f -> (forall p, In p (f_packs f) -> In p (f_packs f')) ->
  f_first f' = match f_first f b with None => updn (f_first f) b (Some (f_n f)) | _ => f_first f end -> f_bb f' = updn (f_bb f) (f_n f) b ->
  fext f f'.
Proof.
  intros f f' b [CO B] NS EN EB (l2 & y & EL & LD & (i & EI)) EF ES EP E1 EBB. split; try lia.
  - exists (l2 ++ [y]). split; [rewrite EL, <- app_assoc; reflexivity|]. intros k [C1 C2] ox I0. apply in_app_or in I0. destruct I0 as [I0|[<-|[]]].
    + destruct (LD ox I0) as (r & t & ->). cbn. intro Q. injection Q as <-. lia.
    + rewrite EI. discriminate.
  - intros k L. rewrite EBB. apply updn_ne. lia.
  - intros b' k F1. rewrite E1. destruct (f_first f b) eqn:FB; [assumption|]. rewrite updn_ne; [assumption|]. intros ->. congruence.
  - intros b' S'. rewrite ES, EF. split; [reflexivity|]. destruct (Nat.eqb_spec b b') as [Q|]; [|reflexivity]. subst b'. contradiction.
  - assumption.
  - intros k [C1 C2]. split; [lia|]. intros b' F'. rewrite ES. rewrite EF in F'. destruct (Nat.eqb_spec b b') as [Q|]; [injection F' as <-; lia|].
    apply C2. assumption.
Qed.
Lemma fext_same : forall f f' b k, BI f -> f_succs f b = [] -> f_file f b = Some k -> f_n f' = f_n f -> f_nb f' = f_nb f -> f_log f' = f_log f ->
  f_first f' = f_first f -> f_bb f' = f_bb f -> (forall p, In p (f_packs f) -> In p (f_packs f')) ->
  (forall b', b' <> b -> f_succs f' b' = f_succs f b' /\ f_file f' b' = f_file f b') ->
  (f_file f' b = None \/ f_file f' b = Some k /\ f_succs f' b <> []) ->
  fext f f' /\ closed f' k.
Proof.
  intros f f' b k [CO B] NS FB EN EB EL E1 EBB EP OT NW.
  assert (CL : forall k', closed f k' \/ k' = k -> closed f' k').
  { intros k' C. assert (K' : (k' < f_n f)%nat). { destruct C as [[C _]| ->]; [assumption|]. apply (st_file _ B _ _ FB). }
    split; [lia|]. intros b' F'. destruct (Nat.eq_dec b' b) as [->|N].
    - destruct NW as [NW|[NW NS']]; [congruence|]. assumption.
    - destruct (OT b' N) as [-> O2]. rewrite O2 in F'. destruct C as [[_ C2]| ->]; [apply C2; assumption|].
      destruct (st_file _ B _ _ F') as (_ & X1 & _). destruct (st_file _ B _ _ FB) as (_ & X2 & _). congruence. }
  split; [|apply CL; auto]. split; try lia.
  - exists []. split; [assumption|]. intros ? _ ox [].
  - intros. rewrite EBB. reflexivity.
  - intros b' k' F. rewrite E1. assumption.
  - intros b' S'. apply OT. intros ->. contradiction.
  - assumption.
  - intros k' C. apply CL. auto.
Qed.
Lemma ext_term_at : forall m m1 k t, ext m m1 -> ~ closed (m_f m) k -> ext m (end_with m1 k t).
Proof.
  intros m m1 k t X N. split; try apply X. intros k' C. cbn [m_term end_with]. rewrite updn_ne; [apply X; assumption|]. intros ->. contradiction.
Qed.
Lemma ext_pcx_at : forall m m1 b x, ext m m1 -> f_succs (m_f m) b = [] -> ext m (set_pcx m1 b x).
Proof.
  intros m m1 b x X N. split; try apply X. intros b' C. cbn [m_pcx set_pcx]. rewrite updn_ne; [apply X; assumption|]. intros ->. contradiction.
Qed.

(** Returns. *)
Lemma ret_inv : forall q m m' x, posn q m -> cop1 m (CRet (x_b q)) = Some m' ->
  let m2 := end_with m' (x_k q) x in
  wf m2 /\ ext m m2 /\ closed (m_f m2) (x_k q) /\ m_term m2 (x_k q) = Some x /\ m_code m2 = m_code m /\ f_log (m_f m2) = f_log (m_f m) /\
  In (Pack (x_k q) (x_b q) None) (f_packs (m_f m2)) /\ f_n (m_f m2) = f_n (m_f m).
Proof.
  intros q m m' x P E m2. pose proof (cop1_built _ _ _ E (pn_built _ _ P)) as BT. destruct (cop1_inv _ _ _ E) as (f' & L & X & ->).
  cbn [cexec1 do_ret do_pack] in X. unfold do_ret, do_pack in X. rewrite (pn_file _ _ P) in X. injection X as <-.
  subst m2. cbn [m_f with_f end_with m_term m_code f_packs f_log f_n] in *.
  match goal with |- context [closed ?g _] => destruct (fext_same (m_f m) g (x_b q) (x_k q)) as [FE CL] end;
    cbn [f_n f_nb f_log f_first f_bb f_packs f_succs f_file]; try reflexivity; try apply P.
  { apply built_BI. apply (pn_built _ _ P). }
  { intros p I0. apply in_or_app. auto. }
  { intros b' N. split; [reflexivity|]. apply updn_ne. assumption. }
  { left. apply updn_eq. }
  split; [split; [exact BT|apply (pn_wf _ _ P)|apply (pn_wf _ _ P)]|]. split; [apply ext_term_at; [apply ext_f; exact FE|apply posn_open; assumption]|].
  split; [exact CL|]. split; [apply updn_eq|]. split; [reflexivity|]. split; [reflexivity|]. split; [|reflexivity]. apply in_or_app. right. left. reflexivity.
Qed.
(** Calls. *)
Lemma lcall_inv : forall q m g m' q', posn q m -> lcall c q m g = Some (m', q') ->
  exists p n, x_pc q = Some p /\ n = num m (f_n (m_f m)) 0 /\ q' = Loc (x_b q) (f_n (m_f m)) (fun _ => None) (Some (QVal (ELeaf (AVar n (TInt 64))))) /\
  posn q' m' /\ ext m m' /\ closed (m_f m') (x_k q) /\ m_term m' (x_k q) = Some (TCall g (pc_exp c p 0) (f_n (m_f m))) /\
  m_code m' (x_k q) = m_code m (x_k q) /\ m_code m' (f_n (m_f m)) = [IPcLoad n] /\
  In (Pack (x_k q) (x_b q) (Some (f_n (m_f m)))) (f_packs (m_f m')) /\
  exists l2 y, f_log (m_f m') = l2 ++ (ONew InitNone, y) :: f_log (m_f m) /\ loads (f_n (m_f m)) l2.
Proof.
  intros q m g m' q' P E. unfold lcall in E. destruct (x_pc q) as [p|] eqn:PC; [|discriminate].
  destruct (Lower.cop1 c m (CCall (x_b q))) as [m1|] eqn:C1; [|discriminate]. injection E as <- <-.
  pose proof (cop1_built _ _ _ C1 (pn_built _ _ P)) as BT. destruct (cop1_inv _ _ _ C1) as (f' & L & X & ->).
  destruct (posn_bb _ _ P) as (_ & KN & _).
  cbn [m_f with_f] in *. cbn [cexec1] in X. unfold do_call, do_pack in X. rewrite (pn_file _ _ P) in X. apply unpack_inv in X.
  cbn [f_n f_nb f_max f_file f_preds f_succs f_packs f_first f_bb f_log] in X. destruct X as ((l2 & y & EL & LD) & EN & EB & _ & EF & _ & ES & EP & E1 & EBB).
  assert (EF' : forall b', f_file f' b' = if Nat.eqb (x_b q) b' then Some (f_n (m_f m)) else f_file (m_f m) b').
  { intros b'. rewrite EF. unfold updn. destruct (Nat.eqb (x_b q) b'); reflexivity. }
  assert (FE : fext (m_f m) f').
  { apply (fext_file _ _ (x_b q)); try assumption; try apply P.
    - apply built_BI. apply (pn_built _ _ P).
    - exists l2, (ONew InitNone, y). split; [assumption|]. split; [assumption|]. exists InitNone. reflexivity.
    - intros pk I0. rewrite EP. apply in_or_app. auto. }
  assert (CL : closed f' (x_k q)).
  { destruct (built_BI _ _ _ BT) as [_ B']. split; [lia|]. intros b' F'. rewrite EF' in F'. destruct (Nat.eqb_spec (x_b q) b') as [Q|Q]; [injection F' as Q'; lia|].
    destruct (built_BI _ _ _ (pn_built _ _ P)) as [_ B]. destruct (st_file _ B _ _ F') as (_ & X1 & _). destruct (posn_bb _ _ P). congruence. }
  exists p, (num m (f_n (m_f m)) 0). split; [reflexivity|]. split; [reflexivity|]. split; [reflexivity|].
  cbn [m_f with_f end_with emit m_code m_term m_blk m_pcx m_fold].
  split; [split; cbn [m_f with_f end_with emit x_b x_k]; [split; cbn [m_f with_f end_with emit m_code m_blk]|..]|].
  - exact BT.
  - intros k L'. rewrite EN in L'. rewrite updn_ne by lia. apply (pn_wf _ _ P). lia.
  - apply (pn_wf _ _ P).
  - rewrite EF', Nat.eqb_refl. reflexivity.
  - rewrite ES. apply P.
  - split.
    { apply (ext_trans _ (end_with (with_f m f') (x_k q) (TCall g (pc_exp c p 0) (f_n (m_f m))))).
      - apply ext_term_at; [apply ext_f; exact FE|apply posn_open; assumption].
      - set (m1 := end_with (with_f m f') (x_k q) (TCall g (pc_exp c p 0) (f_n (m_f m)))).
        apply (emit_ext (Loc (x_b q) (f_n (m_f m)) (fun _ => None) None) m1). split; cbn [x_b x_k].
        + split; cbn [m1 m_f with_f end_with m_code m_blk]; [exact BT| |apply (pn_wf _ _ P)]. intros k L'. apply (pn_wf _ _ P). lia.
        + cbn [m1 m_f with_f end_with]. rewrite EF', Nat.eqb_refl. reflexivity.
        + cbn [m1 m_f with_f end_with]. rewrite ES. apply P. }
    split; [exact CL|]. split; [apply updn_eq|]. split; [apply updn_ne; lia|]. split.
    { rewrite updn_eq. rewrite (wf_fresh _ (pn_wf _ _ P)) by lia. reflexivity. }
    split; [|exists l2, y; auto]. rewrite EP. apply in_or_app. right. left. reflexivity.
Qed.
(** The beginning of a block. *)
Lemma init_inv : forall m b seal m', wf m -> cop1 m (CInit b seal) = Some m' ->
  let k := f_n (m_f m) in
  ext m m' /\ m' = with_f m (m_f m') /\ wf m' /\ f_file (m_f m') b = Some k /\ f_succs (m_f m') b = [] /\ f_first (m_f m') b = Some k /\
  (exists i y, f_log (m_f m') = (ONew i, y) :: f_log (m_f m)) /\ f_n (m_f m') = S k.
Proof.
  intros m b seal m' W E k. pose proof (cop1_built _ _ _ E (wf_built _ W)) as BT. destruct (cop1_inv _ _ _ E) as (f' & L & X & ->). cbn [m_f with_f] in *.
  cbn [cexec1] in X. destruct L as (L1 & L2 & L3 & L4). pose proof (built_BI _ _ _ (wf_built _ W)) as BI0. pose proof BI0 as [CO B].
  assert (NS : f_succs (m_f m) b = []).
  { destruct (f_succs (m_f m) b) as [|t l] eqn:S'; [reflexivity|]. destruct (st_rng _ B b t) as [_ F']; [rewrite S'; left; reflexivity|].
    destruct (f_file (m_f m) b) as [k0|] eqn:FB; [|congruence]. destruct (st_file _ B _ _ FB) as (_ & _ & _ & N). congruence. }
  assert (NF : exists i, new_file A (m_f m) b i = Some f').
  { unfold init_with_phis in X. destruct (f_preds (m_f m) b) as [|p0 [|p1 l]]; [eauto| |eauto].
    destruct (seal || _); [|eauto]. destruct (f_file (m_f m) p0); [eauto|discriminate]. }
  destruct NF as [i NF]. rewrite new_file_eq in NF. injection NF as NF.
  assert (FE : fext (m_f m) f').
  { apply (fext_file _ _ b); try assumption; rewrite <- NF; cbn [f_n f_nb f_max f_file f_preds f_succs f_packs f_first f_bb f_log]; try reflexivity; auto.
    exists [], (ONew i, None). split; [reflexivity|]. split; [intros ox []|]. exists i. reflexivity. }
  split; [apply ext_f; exact FE|]. split; [reflexivity|]. split.
  { split; cbn [m_f with_f m_code m_blk]; [assumption| |apply W]. intros k' L'. apply W. pose proof (fe_n _ _ FE). lia. }
  rewrite <- NF. cbn [f_n f_file f_succs f_first f_log]. rewrite L2, !updn_eq. repeat split; try assumption. eauto.
Qed.

(** ResolveAddr. *)
Lemma blk_at_in : forall l a b, blk_at l a = Some b -> In (a, b) l.
Proof.
  intros l a b E. unfold blk_at in E. destruct (find (fun x => fst x =? a) l) as [[a' b']|] eqn:F; [|discriminate]. injection E as ->.
  apply find_some in F. destruct F as [I0 Q]. cbn in Q. apply Z.eqb_eq in Q. subst. assumption.
Qed.
Lemma blk_at_none : forall l a, blk_at l a = None -> ~ In a (map fst l).
Proof.
  intros l a E I0. unfold blk_at in E. destruct (find (fun x => fst x =? a) l) as [[a' b']|] eqn:F; [discriminate|].
  apply in_map_iff in I0. destruct I0 as ([a' b'] & Q & I0). cbn in Q. subst a'. apply (find_none _ _ F) in I0. cbn in I0. lia.
Qed.
Lemma fext_block : forall f mx, BI f -> fext f (new_block f mx).
Proof.
  intros f mx [CO B]. split; cbn [new_block f_log f_n f_nb f_bb f_first f_succs f_file f_packs]; auto.
  - exists []. split; [reflexivity|]. intros k _ ox [].
  - intros b k F. destruct (st_first _ B _ _ F) as (_ & _ & X & _). rewrite updn_ne by lia. assumption.
  - intros b S'. assert (X : (b < f_nb f)%nat).
    { destruct (f_succs f b) as [|t l] eqn:Q; [congruence|]. destruct (st_rng _ B b t) as [_ F']; [rewrite Q; left; reflexivity|].
      destruct (f_file f b) as [k0|] eqn:FB; [|congruence]. apply (st_file _ B _ _ FB). }
    rewrite !updn_ne by lia. auto.
  - intros k [C1 C2]. split; [assumption|]. cbn [new_block f_file f_succs]. intros b. unfold updn. destruct (Nat.eqb (f_nb f) b); [discriminate|]. apply C2.
Qed.
Lemma cblock_inv : forall m mx m', wf m -> cop1 m (CBlock mx) = Some m' ->
  wf m' /\ ext m m' /\ m' = with_f m (m_f m') /\ (forall q, posn q m -> posn q m') /\ f_n (m_f m') = f_n (m_f m) /\ f_log (m_f m') = f_log (m_f m) /\ f_nb (m_f m') = S (f_nb (m_f m)) /\
  f_file (m_f m') = updn (f_file (m_f m)) (f_nb (m_f m)) None /\ f_succs (m_f m') = updn (f_succs (m_f m)) (f_nb (m_f m)) [].
Proof.
  intros m mx m' W E. pose proof (cop1_built _ _ _ E (wf_built _ W)) as BT. destruct (cop1_inv _ _ _ E) as (f' & L & X & ->). cbn [m_f with_f] in *.
  cbn [cexec1] in X. injection X as <-.
  assert (W' : wf (with_f m (new_block (m_f m) mx))) by (split; [exact BT|apply W|apply W]).
  split; [assumption|]. split; [apply ext_f; apply fext_block; apply built_BI; apply W|]. split; [reflexivity|].
  split; [|cbn [new_block f_n f_log f_nb f_file f_succs]; repeat split; reflexivity].
  intros q P. destruct (posn_bb _ _ P) as (_ & _ & X). split; [assumption|..]; cbn [m_f with_f new_block f_file f_succs]; rewrite updn_ne by lia; apply P.
Qed.
Lemma rblk_inv : forall m a m' t, wf m -> rblk m a = Some (m', t) ->
  wf m' /\ ext m m' /\ (forall q, posn q m -> posn q m') /\ m_code m' = m_code m /\ m_term m' = m_term m /\ m_pcx m' = m_pcx m /\
  f_log (m_f m') = f_log (m_f m) /\ f_n (m_f m') = f_n (m_f m) /\
  (resolve Ins ds a = false /\ t = exitb \/ resolve Ins ds a = true /\ In (a, t) (m_blk m')).
Proof.
  intros m a m' t W E. unfold Lower.rblk in E. destruct (resolve Ins ds a) eqn:RS.
  - destruct (blk_at (m_blk m) a) as [b|] eqn:BA.
    + injection E as <- <-. split; [assumption|]. split; [apply ext_refl|]. split; [auto|]. do 5 (split; [reflexivity|]). right. split; [reflexivity|]. apply blk_at_in. assumption.
    + destruct (Lower.cop1 c m _) as [m1|] eqn:C1; [|discriminate]. injection E as <- <-.
      destruct (cblock_inv _ _ _ W C1) as (W1 & E1 & MM & PQ & N1 & LG & NB & _).
      assert (W2 : wf (Em (m_f m1) (m_nx m1) (m_code m1) (m_term m1) ((a, f_nb (m_f m)) :: m_blk m1) (m_pcx m1) (m_fold m1))).
      { split; [apply W1|apply W1|]. cbn [m_blk map fst]. constructor; [|apply W1]. rewrite MM. cbn [m_blk with_f]. apply blk_at_none. assumption. }
      split; [assumption|]. split; [split; try apply E1; cbn [m_blk]; intros x I0; [right; apply E1; assumption|destruct I0 as [<-|I0]; [right; apply Nat.le_refl|apply E1; exact I0]]|].
      split; [intros q P; destruct (PQ q P); split; assumption|]. cbn [m_code m_term m_pcx m_f]. rewrite N1, LG. rewrite MM. repeat split.
      right. split; [reflexivity|]. left. reflexivity.
  - injection E as <- <-. split; [assumption|]. split; [apply ext_refl|]. split; [auto|]. do 5 (split; [reflexivity|]). left. auto.
Qed.

(** Branches. *)
Record branched (q : loc) (m m' : em) (ts : list nat) (t : term) : Prop := {
  br_wf : wf m';
  br_ext : ext m m';
  br_closed : closed (m_f m') (x_k q);
  br_term : m_term m' (x_k q) = Some t;
  br_code : m_code m' = m_code m;
  br_pcx : m_pcx m' = m_pcx m;
  br_log : f_log (m_f m') = f_log (m_f m);
  br_n : f_n (m_f m') = f_n (m_f m);
  br_file : f_file (m_f m') (x_b q) = Some (x_k q);
  br_succs : f_succs (m_f m') (x_b q) = ts;
}.
Lemma edges_inv : forall q m f' ts t, posn q m -> built f' -> ts <> [] ->
  (exists preds succs, (succs = updn (f_succs (m_f m)) (x_b q) ts) /\
     f' = Fn (f_n (m_f m)) (f_h (m_f m)) (f_nb (m_f m)) (f_max (m_f m)) (f_file (m_f m)) preds succs (f_packs (m_f m)) (f_first (m_f m)) (f_bb (m_f m)) (f_log (m_f m))) ->
  branched q m (end_with (with_f m f') (x_k q) t) ts t.
Proof.
  intros q m f' ts t P BT NT (preds & succs & ES & EF).
  destruct (fext_same (m_f m) f' (x_b q) (x_k q)) as [FE CL]; rewrite ?EF; cbn [f_n f_nb f_log f_first f_bb f_packs f_succs f_file]; try reflexivity; try apply P; auto.
  { apply built_BI. apply (pn_built _ _ P). }
  { intros b' N. rewrite ES. rewrite updn_ne by assumption. auto. }
  { right. split; [apply P|]. rewrite ES, updn_eq. assumption. }
  split; cbn [m_f with_f end_with m_term m_code m_pcx]; rewrite ?EF; cbn [f_n f_nb f_log f_first f_bb f_packs f_succs f_file]; try reflexivity.
  - rewrite <- EF. split; [exact BT|rewrite EF; apply (pn_wf _ _ P)|apply (pn_wf _ _ P)].
  - rewrite <- EF. apply ext_term_at; [apply ext_f; exact FE|apply posn_open; assumption].
  - rewrite <- EF. exact CL.
  - apply updn_eq.
  - apply P.
  - rewrite ES. apply updn_eq.
Qed.
Lemma lbr_inv : forall q m t m', posn q m -> lbr c q m t = Some m' -> branched q m m' [t] (TBr t).
Proof.
  intros q m t m' P E. unfold lbr in E. destruct (Lower.cop1 c m (CBr (x_b q) t)) as [m1|] eqn:C1; [|discriminate]. injection E as <-.
  pose proof (cop1_built _ _ _ C1 (pn_built _ _ P)) as BT. destruct (cop1_inv _ _ _ C1) as (f' & L & X & ->).
  cbn [cexec1] in X. unfold branch_to in X. rewrite (pn_file _ _ P), (pn_succs _ _ P) in X. injection X as <-.
  apply edges_inv; [assumption|exact BT|discriminate|]. eexists _, _. split; [|reflexivity]. reflexivity.
Qed.
Lemma ccond_inv : forall q m t o tt m1, posn q m -> cop1 m (CCond (x_b q) t o) = Some m1 ->
  branched q m (end_with m1 (x_k q) tt) (if Nat.eqb t o then [t] else [t; o]) tt.
Proof.
  intros q m t o tt m1 P C1.
  pose proof (cop1_built _ _ _ C1 (pn_built _ _ P)) as BT. destruct (cop1_inv _ _ _ C1) as (f' & L & X & ->).
  cbn [cexec1] in X. unfold cond_branch_to, branch_to in X. rewrite (pn_file _ _ P), (pn_succs _ _ P) in X. destruct (Nat.eqb t o).
  - injection X as <-. apply edges_inv; [assumption|exact BT|discriminate|]. eexists _, _. split; [|reflexivity]. reflexivity.
  - injection X as <-. apply edges_inv; [assumption|exact BT|discriminate|]. eexists _, _. split; [|reflexivity]. reflexivity.
Qed.
Lemma set_pcx_inv : forall q m x, posn q m -> posn q (set_pcx m (x_b q) x) /\ ext m (set_pcx m (x_b q) x).
Proof.
  intros q m x P. split; [split; [|apply P|apply P]; split; apply (pn_wf _ _ P)|]. apply ext_pcx_at; [apply ext_refl|apply P].
Qed.
Lemma add_fold_inv : forall q m k x z, posn q m -> posn q (add_fold m k x z) /\ ext m (add_fold m k x z).
Proof.
  intros q m k x z P. split; [split; [|apply P|apply P]; split; apply (pn_wf _ _ P)|]. split; auto using fext_refl.
  - intros k'. exists []. auto.
  - intros y I0. right. assumption.
Qed.
(** A block's last branch: to one of at most two blocks. *)
Definition goes (m : em) (a : Z) (t : nat) : Prop := resolve Ins ds a = false /\ t = exitb \/ resolve Ins ds a = true /\ In (a, t) (m_blk m).
Record left_to (q : loc) (m m' : em) (t : term) : Prop := {
  lt_wf : wf m';
  lt_ext : ext m m';
  lt_closed : closed (m_f m') (x_k q);
  lt_term : m_term m' (x_k q) = Some t;
  lt_code : m_code m' = m_code m;
  lt_pcx : m_pcx m' = m_pcx m;
  lt_log : f_log (m_f m') = f_log (m_f m);
  lt_file : f_file (m_f m') (x_b q) = Some (x_k q);
  lt_succs : forall b, (exists x t' o, t = TCond x t' o /\ (b = t' \/ b = o)) \/ t = TBr b -> In b (f_succs (m_f m') (x_b q));
}.
Lemma left_br : forall q m m' ts t, branched q m m' ts t -> (forall b, (exists x t' o, t = TCond x t' o /\ (b = t' \/ b = o)) \/ t = TBr b -> In b ts) -> left_to q m m' t.
Proof. intros q m m' ts t [] X. split; try assumption. rewrite br_succs0. assumption. Qed.
Lemma left_pre : forall q m m1 m' t, left_to q m1 m' t -> ext m m1 -> m_code m1 = m_code m -> m_pcx m1 = m_pcx m -> f_log (m_f m1) = f_log (m_f m) -> left_to q m m' t.
Proof.
  intros q m m1 m' t [] E C1 C2 C3. split; try assumption.
  - eapply ext_trans; eassumption.
  - rewrite lt_code0. assumption.
  - rewrite lt_pcx0. assumption.
  - rewrite lt_log0. assumption.
Qed.
Lemma goes_ext : forall m m' a t, ext m m' -> goes m a t -> goes m' a t.
Proof. intros m m' a t E [X|[X Y]]; [left; assumption|right]. split; [assumption|]. apply (ex_blk _ _ E). assumption. Qed.
Lemma lbr_left : forall q m t m', posn q m -> lbr c q m t = Some m' -> left_to q m m' (TBr t).
Proof.
  intros q m t m' P E. apply (left_br _ _ _ [t]); [apply lbr_inv; assumption|]. intros b [(x & t' & o & Q & _)|Q]; [discriminate|]. injection Q as ->. left. reflexivity.
Qed.
Lemma lcond_inv : forall q m x a1 a2 m', posn q m -> lcond c Ins ds a0 cfold q m x a1 a2 = Some m' ->
  (exists z t, left_to q m m' (TBr t) /\ In (x_k q, x, z) (m_fold m') /\ goes m' (if z : bool then a1 else a2) t) \/
  (exists t o, left_to q m m' (if Nat.eqb t o then TBr t else TCond x t o) /\ goes m' a1 t /\ goes m' a2 o).
Proof.
  intros q m x a1 a2 m' P E. unfold lcond in E. destruct (cfold (x_k q) x) as [z|].
  - left. destruct (add_fold_inv q m (x_k q) x z P) as [P1 E1].
    destruct (Lower.rblk c Ins ds a0 (add_fold m (x_k q) x z) (if z then a1 else a2)) as [[m1 t]|] eqn:RB; [|discriminate].
    destruct (rblk_inv _ _ _ _ (pn_wf _ _ P1) RB) as (W2 & E2 & PQ & C2 & T2 & X2 & L2 & N2 & G2).
    pose proof (lbr_left _ _ _ _ (PQ _ P1) E) as LF. exists z, t. split; [|split].
    + eapply left_pre; [eassumption|eapply ext_trans; eassumption|..]; assumption.
    + apply (ex_fold _ _ (lt_ext _ _ _ _ LF)), (ex_fold _ _ E2). left. reflexivity.
    + eapply goes_ext; [apply LF|exact G2].
  - right. destruct (Lower.rblk c Ins ds a0 m a1) as [[m1 t]|] eqn:RB1; [|discriminate].
    destruct (rblk_inv _ _ _ _ (pn_wf _ _ P) RB1) as (W1 & E1 & PQ1 & C1 & T1 & X1 & L1 & N1 & G1).
    destruct (Lower.rblk c Ins ds a0 m1 a2) as [[m2 o]|] eqn:RB2; [|discriminate].
    destruct (rblk_inv _ _ _ _ W1 RB2) as (W2 & E2 & PQ2 & C2 & T2 & X2 & L2 & N2 & G2).
    destruct (Lower.cop1 c m2 (CCond (x_b q) t o)) as [m3|] eqn:CC; [|discriminate]. injection E as <-.
    pose proof (ccond_inv q m2 t o (if Nat.eqb t o then TBr t else TCond x t o) m3 (PQ2 _ (PQ1 _ P)) CC) as BR.
    apply left_br in BR.
    + exists t, o. split; [|split].
      * eapply left_pre; [exact BR|eapply ext_trans; eassumption|congruence..].
      * eapply goes_ext; [apply BR|]. eapply goes_ext; [exact E2|exact G1].
      * eapply goes_ext; [apply BR|]. exact G2.
    + intros b Q. destruct (Nat.eqb_spec t o) as [<-|].
      * destruct Q as [(x' & t' & o' & Q & _)|Q]; [discriminate|]. injection Q as ->. left. reflexivity.
      * destruct Q as [(x' & t' & o' & Q & D)|Q]; [|discriminate]. injection Q as <- <- <-. cbn. intuition.
Qed.
(** What [lend] leaves behind. *)
Record ended (q : loc) (m m' : em) (t : term) (p : spc) : Prop := {
  en_left : exists m1, left_to q m1 m' t /\ ext m m1 /\ m_code m1 = m_code m /\ f_log (m_f m1) = f_log (m_f m);
  en_pc : x_pc q = Some p;
  en_pcx : m_pcx m' (x_b q) = Some (pc_exp c p 0);
}.
Inductive dest (m' : em) (k : nat) (p : spc) : bend -> term -> Prop :=
| de_exit : dest m' k p BExit (TBr exitb)
| de_val : forall v, p = QVal v -> dest m' k p BBranch (TBr exitb)
| de_const : forall a t, p = QConst a -> goes m' a t -> dest m' k p BBranch (TBr t)
| de_fold : forall x a1 a2 z t, (p = QCond x a1 a2 \/ exists v, p = QCheck v a1 /\ a2 = 0 /\ x = eCmp EQ v (EConst (TInt 64) (addr_pc_base c a1))) ->
    In (k, x, z) (m_fold m') -> goes m' (if z : bool then a1 else a2) t -> dest m' k p BBranch (TBr t)
| de_cond : forall x a1 a2 t o, (p = QCond x a1 a2 \/ exists v, p = QCheck v a1 /\ a2 = 0 /\ x = eCmp EQ v (EConst (TInt 64) (addr_pc_base c a1))) ->
    goes m' a1 t -> goes m' a2 o -> dest m' k p BBranch (if Nat.eqb t o then TBr t else TCond x t o).
Lemma lend_inv : forall q m e m', posn q m -> lend c Ins ds a0 cfold q m e = Some m' -> exists p t, ended q m m' t p /\ dest m' (x_k q) p e t.
Proof.
  intros q m e m' P E. unfold lend in E. destruct (x_pc q) as [p|] eqn:PC; [|discriminate]. cbv zeta in E.
  destruct (set_pcx_inv q m (pc_exp c p 0) P) as [P1 E1]. set (m1 := set_pcx m (x_b q) (pc_exp c p 0)) in *.
  assert (X1 : m_pcx m1 (x_b q) = Some (pc_exp c p 0)) by apply updn_eq.
  assert (FIN : forall t, left_to q m1 m' t -> ended q m m' t p).
  { intros t LF. split; [|assumption|rewrite (lt_pcx _ _ _ _ LF); assumption]. exists m1. auto. }
  assert (COND : forall x a1 a2, lcond c Ins ds a0 cfold q m1 x a1 a2 = Some m' ->
    (p = QCond x a1 a2 \/ exists v, p = QCheck v a1 /\ a2 = 0 /\ x = eCmp EQ v (EConst (TInt 64) (addr_pc_base c a1))) ->
    exists p t, ended q m m' t p /\ dest m' (x_k q) p BBranch t).
  { intros x a1 a2 LC D. destruct (lcond_inv _ _ _ _ _ _ P1 LC) as [(z & t & LF & FO & G)|(t & o & LF & G1 & G2)].
    - exists p, (TBr t). split; [apply FIN; assumption|]. eapply de_fold; eassumption.
    - exists p. eexists. split; [apply FIN; exact LF|]. eapply de_cond; eassumption. }
  destruct e; [discriminate| |].
  - exists p, (TBr exitb). split; [apply FIN; apply lbr_left; assumption|constructor].
  - destruct p as [v|a|v a1 a2|v a].
    + exists (QVal v), (TBr exitb). split; [apply FIN; apply lbr_left; assumption|econstructor; reflexivity].
    + destruct (Lower.rblk c Ins ds a0 m1 a) as [[m2 t]|] eqn:RB; [|discriminate].
      destruct (rblk_inv _ _ _ _ (pn_wf _ _ P1) RB) as (W2 & E2 & PQ & C2 & T2 & X2 & L2 & N2 & G2).
      pose proof (lbr_left _ _ _ _ (PQ _ P1) E) as LF. exists (QConst a), (TBr t). split.
      * apply FIN. eapply left_pre; eassumption.
      * eapply de_const; [reflexivity|]. eapply goes_ext; [apply LF|exact G2].
    + apply (COND v a1 a2); [assumption|]. left. reflexivity.
    + apply (COND (eCmp EQ v (EConst (TInt 64) (addr_pc_base c a))) a 0); [exact E|]. right. exists v. auto.
Qed.
Lemma ended_ext : forall q m m' t p, ended q m m' t p -> ext m m' /\ wf m'.
Proof. intros q m m' t p X. destruct (en_left _ _ _ _ _ X) as (m1 & LF & E1 & _). split; [eapply ext_trans; [exact E1|apply LF]|apply LF]. Qed.

(** ** Whole blocks *)
Lemma lret_inv : forall q m m', posn q m -> lret c q m = Some m' -> exists p, x_pc q = Some p /\
  wf m' /\ ext m m' /\ closed (m_f m') (x_k q) /\ m_term m' (x_k q) = Some (TRet (pc_exp c p 0)) /\ m_code m' = m_code m /\ f_log (m_f m') = f_log (m_f m) /\
  In (Pack (x_k q) (x_b q) None) (f_packs (m_f m')).
Proof.
  intros q m m' P E. unfold lret in E. destruct (x_pc q) as [p|]; [|discriminate]. exists p. split; [reflexivity|].
  destruct (Lower.cop1 c m (CRet (x_b q))) as [m1|] eqn:C1; [|discriminate]. injection E as <-.
  destruct (ret_inv q m m1 (TRet (pc_exp c p 0)) P C1) as (X1 & X2 & X3 & X4 & X5 & X6 & X7 & _). auto 10.
Qed.
Lemma lstms_cons : forall i q m l, lstms q m (i :: l) =
  match i with
  | SCall f => opt (m, q) <- lcall c q m f; lstms q m l
  | SRet => opt m <- lret c q m; if is_nil l then Some (m, None) else None
  | _ => opt (m, q) <- lstm q m i; lstms q m l
  end.
Proof. intros []; reflexivity. Qed.
Lemma lstms_ext : forall l q m m' x, posn q m -> lstms q m l = Some (m', x) ->
  ext m m' /\ wf m' /\ (forall q', x = Some q' -> posn q' m').
Proof.
  induction l as [|i l IH]; intros q m m' x P E.
  - injection E as <- <-. split; [apply ext_refl|]. split; [apply P|]. intros q' Q. injection Q as <-. assumption.
  - rewrite lstms_cons in E.
    assert (GEN : (opt (m, q) <- lstm q m i; lstms q m l) = Some (m', x) -> ext m m' /\ wf m' /\ (forall q', x = Some q' -> posn q' m')).
    { intros X. destruct (Lower.lstm c gcache q m i) as [[m1 q1]|] eqn:L1; [|discriminate]. destruct (lstm_ext _ _ _ _ _ P L1) as (P1 & E1 & _).
      destruct (IH _ _ _ _ P1 X) as (E2 & X2). split; [eapply ext_trans; eassumption|assumption]. }
    destruct i; try (apply GEN; exact E).
    + destruct (lcall c q m f) as [[m1 q1]|] eqn:L1; [|discriminate]. destruct (lcall_inv _ _ _ _ _ P L1) as (p & n & _ & _ & _ & P1 & E1 & _).
      destruct (IH _ _ _ _ P1 E) as (E2 & X2). split; [eapply ext_trans; eassumption|assumption].
    + destruct (lret c q m) as [m1|] eqn:L1; [|discriminate]. destruct (is_nil l); [|discriminate]. injection E as <- <-.
      destruct (lret_inv _ _ _ P L1) as (p & _ & W1 & E1 & _). split; [assumption|]. split; [assumption|]. discriminate.
Qed.
Notation lsegs := (lsegs c Ins ds a0 cfold gcache).
Lemma lsegs_ext : forall l q m e m', posn q m -> lsegs q m l e = Some m' -> ext m m' /\ wf m'.
Proof.
  induction l as [|[[i d] code] l IH]; intros q m e m' P E; cbn [Lower.lsegs] in E.
  - destruct (lend_inv _ _ _ _ P E) as (p & t & X & _). eapply ended_ext. eassumption.
  - destruct (Lower.lstms c gcache q m code) as [[m1 x]|] eqn:L1; [|discriminate]. destruct (lstms_ext _ _ _ _ _ P L1) as (E1 & W1 & PX). destruct x as [q1|].
    + destruct (IH _ _ _ _ (PX _ eq_refl) E). split; [eapply ext_trans; eassumption|assumption].
    + destruct (is_nil l); [|discriminate]. destruct e; try discriminate. injection E as <-. auto.
Qed.
(** How a block was lowered. *)
Definition blocked (M : em) (b : lblock (LA := plain_lang) Ins) : Prop :=
  exists m t m3, let k := f_n (m_f m) in let q := Loc t k (fun _ => None) None in
    resolve Ins ds (lb_addr _ b) = true /\ In (lb_addr _ b, t) (m_blk M) /\ posn q m3 /\ f_first (m_f M) t = Some k /\ m_code m3 k = [] /\
    (exists i y, f_log (m_f m3) = (ONew i, y) :: f_log (m_f m)) /\ wf m /\
    exists m4, lsegs q m3 (lb_code _ b) (lb_end _ b) = Some m4 /\ ext m4 M.
Lemma blocked_ext : forall M M' b, ext M M' -> blocked M b -> blocked M' b.
Proof.
  intros M M' b E (m & t & m3 & X1 & X2 & X3 & X4 & X5 & X6 & X7 & m4 & X8 & X9). exists m, t, m3. split; [assumption|]. split; [apply (ex_blk _ _ E); assumption|].
  split; [assumption|]. split; [apply (fe_first _ _ (ex_f _ _ E)); assumption|]. split; [assumption|]. split; [assumption|]. split; [assumption|].
  exists m4. split; [assumption|]. eapply ext_trans; eassumption.
Qed.
Lemma lblk_inv : forall m b m', wf m -> lblk c Ins ds a0 cfold gcache m b = Some m' -> wf m' /\ ext m m' /\ blocked m' b.
Proof.
  intros m b m' W E. unfold lblk in E. destruct (resolve Ins ds (lb_addr Ins b)) eqn:RS; [|discriminate].
  destruct (Lower.rblk c Ins ds a0 m (lb_addr Ins b)) as [[m1 t]|] eqn:RB; [|discriminate].
  destruct (rblk_inv _ _ _ _ W RB) as (W1 & E1 & _ & C1 & _ & _ & L1 & N1 & G1). cbv zeta in E.
  destruct (Lower.cop1 c m1 (CInit t false)) as [m2|] eqn:CI; [|discriminate].
  destruct (init_inv _ _ _ _ W1 CI) as (E2 & MM & W2 & F2 & S2 & FI2 & LG2 & N2).
  set (q := Loc t (f_n (m_f m1)) (fun _ => None) None) in *.
  assert (P2 : posn q m2) by (split; assumption).
  destruct (lsegs_ext _ _ _ _ _ P2 E) as [E3 W3]. split; [assumption|]. split; [eapply ext_trans; [eassumption|]; eapply ext_trans; eassumption|].
  destruct G1 as [[G1 _]|[_ G1]]; [congruence|].
  exists m1, t, m2. split; [assumption|]. split; [apply (ex_blk _ _ E3), (ex_blk _ _ E2), G1|]. split; [assumption|].
  split; [apply (fe_first _ _ (ex_f _ _ E3)); assumption|]. split; [rewrite MM; cbn [with_f m_code]; apply W1; lia|]. split; [assumption|]. split; [assumption|].
  exists m'. split; [assumption|apply ext_refl].
Qed.
Lemma lblks_inv : forall l m m', wf m -> lblks c Ins ds a0 cfold gcache m l = Some m' -> wf m' /\ ext m m' /\ forall b, In b l -> blocked m' b.
Proof.
  induction l as [|b l IH]; intros m m' W E; cbn [lblks] in E.
  - injection E as <-. split; [assumption|]. split; [apply ext_refl|]. intros b [].
  - destruct (lblk c Ins ds a0 cfold gcache m b) as [m1|] eqn:L1; [|discriminate]. destruct (lblk_inv _ _ _ W L1) as (W1 & E1 & B1).
    destruct (IH _ _ W1 E) as (W2 & E2 & B2). split; [assumption|]. split; [eapply ext_trans; eassumption|].
    intros b' [<-|I0]; [eapply blocked_ext; eassumption|apply B2; assumption].
Qed.
(** The function as a whole. *)
Record lowered (bs : list (lblock (LA := plain_lang) Ins)) (M : em) (npc : nat) : Prop := {
  lw_built : built (m_f M);
  lw_n : (0 < f_n (m_f M))%nat;
  lw_entry : m_term M 0 = Some (TBr 1) /\ m_code M 0 = [] /\ f_file (m_f M) 0 = Some O /\ f_succs (m_f M) 0 = [1%nat] /\
             (forall ox, In ox (f_log (m_f M)) -> file_of (fst ox) = Some O -> exists r t, fst ox = OLoad 0 r 0 t);
  lw_a0 : resolve Ins ds a0 = true /\ In (a0, 1%nat) (m_blk M);
  lw_nd : NoDup (map fst (m_blk M));
  lw_ne : forall a t, In (a, t) (m_blk M) -> t <> exitb;
  lw_blk : forall b, In b bs -> blocked M b;
  lw_exit : exists k, f_first (m_f M) exitb = Some k /\ m_term M k = Some (TRet (ELeaf (AVar npc (TInt 64)))) /\ m_code M k = [] /\ (exists p, In p (f_packs (m_f M)) /\ pk_file p = k) /\
            (forall ox, In ox (f_log (m_f M)) -> file_of (fst ox) <> Some k);
}.
Lemma closed_log : forall m m' k (l : rop * option value -> Prop), ext m m' -> closed (m_f m) k -> (forall ox, In ox (f_log (m_f m)) -> file_of (fst ox) = Some k -> l ox) ->
  forall ox, In ox (f_log (m_f m')) -> file_of (fst ox) = Some k -> l ox.
Proof.
  intros m m' k l E C X ox I0 F. destruct (fe_log _ _ (ex_f _ _ E)) as (l2 & EL & N). rewrite EL in I0. apply in_app_or in I0. destruct I0 as [I0|I0].
  - destruct (N k C ox I0 F).
  - apply X; assumption.
Qed.
Lemma closed_keep : forall m m' k, ext m m' -> closed (m_f m) k -> m_code m' k = m_code m k /\ m_term m' k = m_term m k.
Proof.
  intros m m' k E C. split; [|apply E; assumption]. destruct (ex_code _ _ E k) as (l2 & EC & N). rewrite EC, (N C). reflexivity.
Qed.
Theorem lower_inv : forall bs M npc, lower c Ins ds a0 cfold gcache bs = Some (M, npc) -> lowered bs M npc.
Proof.
  intros bs M npc E. unfold lower in E. destruct (lstart c Ins ds a0) as [m0|] eqn:ST; [|discriminate].
  destruct (lblks c Ins ds a0 cfold gcache m0 bs) as [m1|] eqn:LB; [|discriminate].
  unfold lstart in ST.
  assert (W0 : wf em0) by (split; [constructor|reflexivity|constructor]).
  destruct (Lower.cop1 c em0 (CBlock (Some 0%nat))) as [n1|] eqn:C1; [|discriminate]. destruct (cblock_inv _ _ _ W0 C1) as (V1 & _ & M1 & _ & N1 & LG1 & NB1 & FF1 & SS1).
  destruct (Lower.cop1 c n1 CEntry) as [n2|] eqn:C2; [|discriminate].
  pose proof (cop1_built _ _ _ C2 (wf_built _ V1)) as BT2. destruct (cop1_inv _ _ _ C2) as (f2 & _ & X2 & M2). cbn [cexec1] in X2.
  apply unpack_inv in X2. rewrite LG1, N1 in X2. cbn [m_f em0 fn0 f_log f_n] in X2. destruct X2 as ((l2 & y & EL & LD) & EN & _ & _ & EF & _ & ES & _ & _).
  cbn [m_f em0 fn0 f_nb f_file f_succs] in *.
  assert (P2 : posn (Loc 0 0 (fun _ => None) None) n2).
  { rewrite M2 in *. cbn [m_f with_f] in BT2. split; cbn [x_b x_k m_f with_f].
    - split; cbn [m_f with_f m_code m_blk]; [exact BT2|..]; rewrite M1; [reflexivity|constructor].
    - rewrite EF. apply updn_eq.
    - rewrite ES, SS1. apply updn_eq. }
  destruct (Lower.rblk c Ins ds a0 n2 a0) as [[n3 t]|] eqn:RB; [|discriminate].
  destruct (rblk_inv _ _ _ _ (pn_wf _ _ P2) RB) as (W3 & E3 & PQ & CC3 & T3 & X3 & L3 & N3 & G3).
  destruct (Nat.eqb_spec t 1) as [->|]; [|discriminate]. destruct G3 as [[_ Q]|[RS G3]]; [discriminate|].
  destruct (lbr c (Loc 0 0 (fun _ => None) None) n3 1) as [n4|] eqn:BR; [|discriminate].
  destruct (lbr_inv _ _ _ _ (PQ _ P2) BR). cbn [x_b x_k] in *.
  destruct (cblock_inv _ _ _ br_wf0 ST) as (W5 & E5 & M5 & _ & _ & _ & NB5 & _).
  assert (B4 : m_blk n4 = m_blk n3).
  { unfold lbr in BR. destruct (Lower.cop1 c n3 (CBr _ 1)) as [n3'|] eqn:C3; [|discriminate]. injection BR as <-.
    destruct (cop1_inv _ _ _ C3) as (f3 & _ & _ & ->). reflexivity. }
  assert (B3 : m_blk n3 = [(a0, 1%nat)] /\ f_nb (m_f n3) = 2%nat).
  { unfold Lower.rblk in RB. rewrite RS in RB. assert (B2 : m_blk n2 = []) by (rewrite M2; cbn [m_blk with_f]; rewrite M1; reflexivity).
    rewrite B2 in RB. cbn [blk_at find] in RB. destruct (Lower.cop1 c n2 _) as [n2'|] eqn:C3; [|discriminate]. injection RB as <- Q.
    destruct (cblock_inv _ _ _ (pn_wf _ _ P2) C3) as (_ & _ & M3 & _ & _ & _ & NB3 & _). cbn [m_blk m_f]. rewrite NB3, Q, M3. cbn [m_blk with_f]. rewrite B2. auto. }
  destruct B3 as [B3 NB3].
  destruct (lblks_inv _ _ _ W5 LB) as (W6 & E6 & BK).
  unfold lfin in E. cbv zeta in E. destruct (Lower.cop1 c m1 (CInit exitb true)) as [n7|] eqn:CI; [|discriminate].
  destruct (init_inv _ _ _ _ W6 CI) as (E7 & M7 & W7 & F7 & S7 & FI7 & (i7 & y7 & LG7) & N7).
  destruct (Lower.cop1 c n7 (CRet exitb)) as [n8|] eqn:CR; [|discriminate]. injection E as <- <-.
  set (k := f_n (m_f m1)) in *. set (tm := TRet (ELeaf (AVar (num n7 k 0) (TInt 64)))) in *.
  destruct (ret_inv (Loc exitb k (fun _ => None) None) n7 n8 tm) as (W8 & E8 & CL8 & T8 & CD8 & LG8 & PK8 & N8); [split; assumption|exact CR|].
  cbn [x_b x_k] in *. set (M := end_with n8 k tm) in *.
  assert (E46 : ext n4 m1) by (eapply ext_trans; eassumption).
  assert (E48 : ext n4 M) by (eapply ext_trans; [eassumption|]; eapply ext_trans; eassumption).
  destruct (closed_keep _ _ _ E48 br_closed0) as [KC KT]. split.
  - apply W8.
  - rewrite N8, N7. lia.
  - destruct (fe_succs _ _ (ex_f _ _ E48) 0%nat) as [KS KF]; [rewrite br_succs0; discriminate|].
    rewrite KT, KC, KS, KF. split; [assumption|]. split; [rewrite br_code0, CC3, M2; cbn [with_f m_code]; rewrite M1; reflexivity|]. split; [assumption|]. split; [assumption|].
    apply (closed_log n4 M 0 (fun ox => exists r t, fst ox = OLoad 0 r 0 t) E48 br_closed0).
    rewrite br_log0, L3, M2. cbn [m_f with_f]. rewrite EL. intros ox I0 FO. apply in_app_or in I0. destruct I0 as [I0|[<-|[]]]; [|discriminate]. apply LD. assumption.
  - split; [assumption|]. apply (ex_blk _ _ E48), (ex_blk _ _ br_ext0), G3.
  - apply W8.
  - intros a t I0. destruct (ex_nblk _ _ (ext_trans _ _ _ E6 (ext_trans _ _ _ E7 E8)) _ I0) as [I1|LE].
    + rewrite M5 in I1. cbn [m_blk with_f] in I1. rewrite B4, B3 in I1. destruct I1 as [Q|[]]. injection Q as _ <-. discriminate.
    + cbn [snd] in LE. pose proof (fe_nb _ _ (ex_f _ _ br_ext0)). rewrite NB5 in LE. unfold exitb. lia.
  - intros b I0. apply (blocked_ext m1); [eapply ext_trans; eassumption|]. apply BK. assumption.
  - exists k. split; [apply (fe_first _ _ (ex_f _ _ E8)); assumption|]. split; [assumption|]. split.
    + rewrite CD8, M7. cbn [with_f m_code]. apply W6. unfold k. lia.
    + split; [exists (Pack k exitb None); auto|]. rewrite LG8, LG7. intros ox [<-|I0]; [discriminate|]. intro FO.
      destruct (built_BI _ _ _ (wf_built _ W6)) as [CO _]. pose proof (co_wf _ _ _ _ _ _ _ _ CO) as WL. pose proof (co_n _ _ _ _ _ _ _ _ CO) as NL.
      assert (X : forall l, wflog A l -> forall ox, In ox l -> forall j, file_of (fst ox) = Some j -> (j < nlog l)%nat).
      { clear. induction l as [|[o x] l IH]; intros W ox I0 j F; [destruct I0|]. destruct W as [W WO]. cbn [nlog].
        assert (ML : (nlog l <= next (nlog l) o)%nat) by (destruct o; cbn; lia). destruct I0 as [<-|I0].
        - cbn [fst] in F. destruct o; cbn [file_of wfop] in *; try discriminate; injection F as <-; lia.
        - specialize (IH W ox I0 j F). lia. }
      specialize (X _ WL _ I0 _ FO). unfold k in X. lia.
Qed.
End Ok.
