(** Invariants of functions under construction. *)

From Coq Require Import ZArith Lia ZifyBool List Bool.
From Verif Require Import Bits IR Facet Dsl RegFile RegFileOk RegScript Layout Cfg CfgHeap CfgLog.
Import ListNotations.
Open Scope Z_scope.

Section Build.
Context `{FpuOps}.
Variable A : arch.
Variable own : nat -> nat.
Notation kd := (kd A).
Notation env_ok := (env_ok A).
Notation tyok := (tyok A).
Notation mlog := (mlog A).
Notation rcell := (rcell A).

(** Registers with a slot in the CPU struct. *)
Definition mapped (r : areg) : Prop := In r (map fst (reg_slots A)).

(** Typing of the values a lifter writes. *)
Definition wtyped (w : wop) : Prop :=
  match w with
  | WSet r v | WMerge r v => tyok v /\ okty (kd r) (v_ty v)
  | WLazy r tr v1 v2 v3 => okty (kd r) (TInt (flag_width tr)) /\ flag_ops A tr (opw v1) v1 v2 v3
  | WGet _ r f => facet_ok (kd r) f
  end.
(** A block that can still get predecessors: fewer than announced so far; the exit
    block (function.cc:144, no bound) before it is initialised (function.cc:198). *)
Definition target_room (f : fn) (t : nat) : Prop :=
  (0 < t < f_nb f)%nat /\ match f_max f t with Some m => (length (f_preds f t) < m)%nat | None => f_first f t = None end.
(** The consequence used in the proofs ([room_ok] below). *)
Definition target_ok (f : fn) (t : nat) : Prop :=
  (0 < t < f_nb f)%nat /\ (match f_max f t with Some m => (length (f_preds f t) < m)%nat | None => True end) /\
  (forall k p, f_first f t = Some k -> h_init (f_h f) k <> InitParent p).
(** How the lifters use blocks and register files: the entry block comes first; a
    block is initialised once, and not written after its terminator; values are
    well-typed and made of instructions that exist; a block gets no more
    predecessors than announced (that this is so is a property of the decoder, C16);
    only the exit block is sealed (function.cc:168,198). *)
Definition clegal (f : fn) (o : cop) : Prop :=
  match o with
  | CBlock _ => True
  | CEntry => f_n f = O /\ (0 < f_nb f)%nat
  | CInit b seal => (0 < b < f_nb f)%nat /\ f_first f b = None /\ (0 < f_n f)%nat /\ (seal = true -> f_max f b = None)
  | CReg b w => (b < f_nb f)%nat /\ f_succs f b = [] /\ mapped (wreg w) /\ wtyped w /\
                forall k, f_file f b = Some k -> Forall (vin (aok A own (f_first f) (f_h f) k)) (wvals w)
  | CCall b | CRet b => (b < f_nb f)%nat /\ f_succs f b = []
  | CBr b t => (b < f_nb f)%nat /\ target_room f t
  | CCond b t o => (b < f_nb f)%nat /\ target_room f t /\ target_room f o
  end.
Inductive built : fn -> Prop :=
| built0 : built fn0
| built1 : forall f o f', built f -> clegal f o -> cexec1 A f o = Some f' -> built f'.

(** ** Register files *)
(** Every read of the history returned the content of the register. *)
Fixpoint rlog (e : env) (l : log) : Prop :=
  match l with [] => True | (o, x) :: l' => rlog e l' /\ out_ok e (mlog e l') o x end.

(** Files filled from the CPU struct are not read before that. *)
Fixpoint ldlog (l : log) : Prop :=
  match l with
  | [] => True
  | (o, _) :: l' => ldlog l' /\
      match o with OGet _ k r _ => mapped r /\ (ilog l' k = InitNone -> forall e s x x', rcell e k r s x l' = rcell e k r s x' l')
                 | OLoad k _ _ _ => ilog l' k = InitNone
                 | _ => True end
  end.
Definition writes (k : nat) (r : areg) (o : rop) : Prop :=
  match o with OSet k' r' _ | OMerge k' r' _ | OLazy k' r' _ _ _ _ => k' = k /\ r' = r | _ => False end.
Record core (pend : list areg) (PAR : nat -> Prop) (n : nat) (h : rfs) (l : log) (first : nat -> option nat) : Prop := {
  co_inv : exists s, inv A s n h /\ (forall k r, (k < n)%nat -> mapped r -> (S k = n -> ~ In r pend) -> t_av s k r = true) /\
                     (forall k, t_par s k = true -> PAR k);
  co_hok : hok A own first h;
  co_n : nlog l = n;
  co_init : forall k, ilog l k = h_init h k;
  co_wf : wflog A l;
  co_lat : lat (aok A own first h) l;
  co_agree : forall e, env_ok e -> agree A e (mlog e l) h;
  co_reads : forall e, env_ok e -> rlog e l;
  co_fresh : forall k r, (n <= k)%nat -> h_dirty h k r = false;
  co_pend : forall r, In r pend -> h_dirty h (pred n) r = false /\ h_init h (pred n) = InitNone /\ (0 < n)%nat;
  co_clean : forall k r, h_dirty h k r = false -> h_init h k <> InitNone -> forall e s x0, rcell e k r s x0 l = x0;
  co_load : forall k r, h_dirty h k r = false -> h_init h k = InitNone -> mapped r -> (k < n)%nat -> (S k = n -> ~ In r pend) ->
            forall e s x0, rcell e k r s x0 l = s;
  co_first : forall b k, first b = Some k -> (k < n)%nat;
  co_phim : forall x, In x (h_phis h) -> mapped (snd x);
  co_wr : forall k r, h_dirty h k r = true -> exists ox, In ox l /\ writes k r (fst ox);
  co_wr2 : forall k r ox, In ox l -> writes k r (fst ox) -> h_dirty h k r = true;
  co_ld : forall k r, h_init h k = InitNone -> mapped r -> (k < n)%nat -> (S k = n -> ~ In r pend) ->
          forall e s x x', rcell e k r s x l = rcell e k r s x' l;
  co_rl : ldlog l;
}.

Lemma core0 : forall PAR, core [] PAR 0 h0 [] (fun _ => None).
Proof.
  intros PAR. split; try reflexivity; try discriminate; try (intros; lia); try contradiction.
  - exists stat0. split; [apply inv0|]. split; [intros; lia|discriminate].
  - split; try discriminate; try (intros; contradiction).
    + intros k r. constructor.
    + constructor.
  - constructor.
Qed.

(** Reads and writes. *)
Definition is_rw (o : rop) : Prop := match o with ONew _ | OLoad _ _ _ _ => False | _ => True end.
Definition rop_reg (o : rop) : areg := match o with ONew _ => GP 0 | OSet _ r _ | OMerge _ r _ | OLazy _ r _ _ _ _ | OLoad _ r _ _ | OGet _ _ r _ => r end.
Definition rtyped (o : rop) : Prop :=
  match o with
  | OSet _ r v | OMerge _ r v => tyok v /\ okty (kd r) (v_ty v)
  | OLazy _ r tr v1 v2 v3 => okty (kd r) (TInt (flag_width tr)) /\ flag_ops A tr (opw v1) v1 v2 v3
  | OGet _ _ r f => facet_ok (kd r) f
  | _ => True
  end.
Lemma cstep_other : forall e k r s x o, file_of o <> Some k \/ rop_reg o <> r -> cstep A e k r s x o = x.
Proof.
  intros e k r s x o N. destruct o as [i|k' r' v|k' r' v|k' r' tr v1 v2 v3|k' r' u t|c k' r' f]; cbn [cstep file_of rop_reg] in *; try reflexivity;
    (destruct (keq_dec k r k' r') as [[<- <-]|Q]; [destruct N as [N|N]; destruct N; reflexivity|rewrite Q; reflexivity]).
Qed.

Lemma core_rw : forall PAR n h l first o k n' h' x, core [] PAR n h l first ->
  is_rw o -> file_of o = Some k -> (k < n)%nat -> ~ PAR k -> mapped (rop_reg o) -> rtyped o ->
  Forall (vin (aok A own first h k)) (opvals o) -> exec1 A (n, h) o = Some (n', h', x) ->
  n' = n /\ h_init h' = h_init h /\ core [] PAR n h' ((o, x) :: l) first.
Proof.
  intros PAR n h l first o k n' h' x CO RW FO LK NP MP TY VA EX.
  destruct (co_inv _ _ _ _ _ _ CO) as (s & IV & AV & TP). pose proof (iv_n _ _ _ _ IV) as SN.
  assert (TPK : t_par s k = false). { destruct (t_par s k) eqn:E; [destruct (NP (TP _ E))|reflexivity]. }
  assert (LG : legal1 A s o).
  { destruct o as [i|k' r' v|k' r' v|k' r' tr v1 v2 v3|k' r' u t|c k' r' f]; cbn [is_rw file_of legal1 rtyped rop_reg] in *; try contradiction; injection FO as ->.
    - split; [|tauto]. split; [lia|]. tauto.
    - split; [|tauto]. split; [lia|]. tauto.
    - split; [|tauto]. split; [lia|]. tauto.
    - split; [lia|]. split; [|assumption]. apply AV; auto. }
  pose proof (exec1_ok A s n h o IV LG) as PO. rewrite EX in PO. destruct PO as (N' & IV' & PA).
  assert (n' = n) as -> by (rewrite N'; destruct o; [contradiction|reflexivity..]). clear N'.
  assert (NC : forall j, ilog l j <> InitParent k).
  { intros j E. rewrite (co_init _ _ _ _ _ _ CO) in E. destruct (iv_par _ _ _ _ IV _ _ E). congruence. }
  assert (FACTS : hok A own first h' /\ h_init h' = h_init h /\
    (forall y, In y (h_phis h) -> In y (h_phis h')) /\ (forall y, In y (h_loads h) -> In y (h_loads h')) /\
    (forall k' r', h_dirty h' k' r' = true \/ h_dirty h' k' r' = h_dirty h k' r') /\
    (match o with OGet _ _ _ _ => h_dirty h' = h_dirty h | _ => h_dirty h' k (rop_reg o) = true end) /\
    (forall k' r', h_dirty h' k' r' = true -> h_dirty h k' r' = true \/ k' = k /\ writes k' r' o) /\
    (forall y, In y (h_phis h') -> In y (h_phis h) \/ snd y = rop_reg o) /\
    match x with Some v => vin (aok A own first h' k) v | None => True end).
  { destruct o as [i|k' r' v|k' r' v|k' r' tr v1 v2 v3|k' r' u t|c k' r' f]; cbn [is_rw file_of exec1 rtyped opvals rop_reg] in *; try contradiction; injection FO as ->.
    - injection EX as <- <-. inversion VA; subst. split; [apply set_full_hok; [apply (co_hok _ _ _ _ _ _ CO)|assumption]|]. split; [reflexivity|].
      split; [auto|]. split; [auto|]. split; [|split; [cbn; rewrite keq_refl; reflexivity|split; [|split; [auto|exact I]]]].
      + intros a b. cbn. destruct (Nat.eqb k a && areg_eqb r' b); auto.
      + intros a b. cbn. destruct (keq_dec k r' a b) as [[<- <-]|Q]; [auto|rewrite Q; auto].
    - destruct (merge h k r' v) as [h1|] eqn:ME; [|discriminate]. injection EX as <- <-. inversion VA; subst.
      destruct (merge_hok A own first h k r' v h1 (co_hok _ _ _ _ _ _ CO)) as (X1 & X2 & X3 & X4 & X5 & X6); try assumption.
      { destruct TY as [_ [_ O]]. exact O. }
      { apply (iv_wf _ _ _ _ IV). }
      split; [assumption|]. split; [assumption|]. split; [rewrite X3; auto|]. split; [auto|]. split; [|split; [rewrite X6, keq_refl; reflexivity|split; [|split; [rewrite X3; auto|exact I]]]].
      + intros a b. rewrite X6. destruct (Nat.eqb k a && areg_eqb r' b); auto.
      + intros a b. rewrite X6. destruct (keq_dec k r' a b) as [[<- <-]|Q]; [cbn; auto|rewrite Q; auto].
    - injection EX as <- <-. inversion VA as [|? ? V1 VA1]; subst. inversion VA1 as [|? ? V2 VA2]; subst. inversion VA2 as [|? ? V3 _]; subst.
      split; [apply set_lazy_hok; [apply (co_hok _ _ _ _ _ _ CO)|assumption..]|]. split; [reflexivity|].
      split; [auto|]. split; [auto|]. split; [|split; [cbn; rewrite keq_refl; reflexivity|split; [|split; [auto|exact I]]]].
      + intros a b. cbn. destruct (Nat.eqb k a && areg_eqb r' b); auto.
      + intros a b. cbn. destruct (keq_dec k r' a b) as [[<- <-]|Q]; [auto|rewrite Q; auto].
    - destruct (get_reg A c h k r' f) as [[h1 v]|] eqn:GE; [|discriminate]. injection EX as <- <-.
      destruct (get_reg_hok A own first c h k r' f h1 v (co_hok _ _ _ _ _ _ CO)) as (X1 & X2 & X3); [|assumption|].
      { exact (proj2 (facet_ok_size _ _ TY)). }
      split; [assumption|]. split; [apply (hx_init _ _ _ X2)|]. split; [|split; [apply (hx_loads _ _ _ X2)|split; [|split; [apply (hx_dirty _ _ _ X2)|split; [|split; [|assumption]]]]]].
      + destruct (hx_phis _ _ _ X2) as (y & -> & _). intros z Y. apply in_or_app. auto.
      + intros a b. rewrite (hx_dirty _ _ _ X2). auto.
      + intros a b. rewrite (hx_dirty _ _ _ X2). auto.
      + destruct (hx_phis _ _ _ X2) as (y & -> & FY). intros z Y. apply in_app_or in Y. destruct Y as [Y|Y]; [auto|]. right. rewrite Forall_forall in FY. auto. }
  destruct FACTS as (HO' & HI & HP & HL & HD1 & HD2 & HD3 & HPM & VX).
  split; [reflexivity|]. split; [assumption|].
  assert (CELL : forall k' r', h_dirty h' k' r' = false -> h_dirty h k' r' = false /\ forall e s y, cstep A e k' r' s y o = y).
  { intros k' r' D. split.
    - destruct (HD1 k' r'); congruence.
    - intros e s0 y. destruct o as [i|k0 r0 v|k0 r0 v|k0 r0 tr v1 v2 v3|k0 r0 u t|c k0 r0 f]; try contradiction; try reflexivity;
        apply cstep_other; cbn [file_of rop_reg] in *; (destruct (Nat.eq_dec k k') as [<-|Q]; [right; intros ->; congruence|left; congruence]). }
  split.
  - exists (stat1 A s o). split; [assumption|]. split.
    + intros k' r' L' M' P'. specialize (AV k' r' L' M' P').
      destruct o as [i|k0 r0 v|k0 r0 v|k0 r0 tr v1 v2 v3|k0 r0 u t|c k0 r0 f]; cbn [stat1 t_av]; unfold updb; try contradiction; try assumption.
      * destruct (Nat.eqb k0 k' && areg_eqb r0 r'); [reflexivity|assumption].
      * destruct (keq_dec k0 r0 k' r') as [[-> ->]|Q]; [rewrite keq_refl, AV; reflexivity|rewrite Q; assumption].
      * destruct (Nat.eqb k0 k' && areg_eqb r0 r'); [reflexivity|assumption].
    + intros k' T'. apply TP. destruct o; cbn [stat1 t_par] in T'; try contradiction; assumption.
  - assumption.
  - cbn [nlog]. rewrite (co_n _ _ _ _ _ _ CO). destruct o; [contradiction|reflexivity..].
  - intros k'. rewrite HI, <- (co_init _ _ _ _ _ _ CO). destruct o; [contradiction|reflexivity..].
  - split; [apply (co_wf _ _ _ _ _ _ CO)|].
    destruct o as [i|k' r' v|k' r' v|k' r' tr v1 v2 v3|k' r' u t|c k' r' f]; cbn [is_rw file_of wfop rtyped] in *; try contradiction; injection FO as ->;
      rewrite (co_n _ _ _ _ _ _ CO); tauto.
  - assert (MONO : forall k' a, aok A own first h k' a -> aok A own first h' k' a) by (intros k' a; apply aok_mono; auto).
    constructor.
    + cbn [fst snd]. intros k' E. rewrite FO in E. injection E as <-. split; [|assumption]. eapply Forall_impl; [|exact VA]. intros v. apply vin_mono. apply MONO.
    + eapply lat_mono; [exact MONO|]. apply (co_lat _ _ _ _ _ _ CO).
  - intros e E. destruct (PA e _ E (co_agree _ _ _ _ _ _ CO e E)) as [X _]. cbn [CfgLog.mlog]. rewrite (co_n _ _ _ _ _ _ CO). exact X.
  - intros e E. split; [apply (co_reads _ _ _ _ _ _ CO); assumption|]. apply (PA e _ E (co_agree _ _ _ _ _ _ CO e E)).
  - intros k' r' L'. destruct (h_dirty h' k' r') eqn:D; [|reflexivity]. destruct (HD3 _ _ D) as [Y|[Y _]]; [|lia]. rewrite (co_fresh _ _ _ _ _ _ CO) in Y by assumption. discriminate.
  - contradiction.
  - intros k' r' D I' e s0 x0. destruct (CELL k' r' D) as [D0 C0]. cbn [CfgLog.rcell]. rewrite C0. rewrite HI in I'. apply (co_clean _ _ _ _ _ _ CO); assumption.
  - intros k' r' D I' M' L' P' e s0 x0. destruct (CELL k' r' D) as [D0 C0]. cbn [CfgLog.rcell]. rewrite C0. rewrite HI in I'. apply (co_load _ _ _ _ _ _ CO); assumption.
  - apply (co_first _ _ _ _ _ _ CO).
  - intros y Y. destruct (HPM y Y) as [Z0| ->]; [apply (co_phim _ _ _ _ _ _ CO)|]; assumption.
  - intros k' r' D. destruct (HD3 _ _ D) as [Y|[-> Y]].
    + destruct (co_wr _ _ _ _ _ _ CO _ _ Y) as (ox & X1 & X2). exists ox. split; [right|]; assumption.
    + exists (o, x). split; [left; reflexivity|assumption].
  - intros k' r' ox [<-|I'] WR.
    + cbn [fst] in WR. destruct o as [i|k0 r0 v|k0 r0 v|k0 r0 tr v1 v2 v3|k0 r0 u t|c k0 r0 f]; cbn [writes file_of rop_reg] in *; try contradiction; destruct WR as [-> ->]; injection FO as ->; exact HD2.
    + pose proof (co_wr2 _ _ _ _ _ _ CO _ _ _ I' WR). destruct (HD1 k' r'); congruence.
  - intros k' r' I' M' L' P' e s0 x0 x1. cbn [CfgLog.rcell]. rewrite HI in I'. rewrite (co_ld _ _ _ _ _ _ CO k' r' I' M' L' P' e s0 x0 x1). reflexivity.
  - split; [apply (co_rl _ _ _ _ _ _ CO)|]. destruct o as [i|k0 r0 v|k0 r0 v|k0 r0 tr v1 v2 v3|k0 r0 u t|c k0 r0 f]; try exact I; [contradiction|]. cbn [file_of rop_reg] in *. injection FO as ->.
    split; [assumption|]. intros IL. rewrite (co_init _ _ _ _ _ _ CO) in IL. apply (co_ld _ _ _ _ _ _ CO); auto.
Qed.

(** A pending load. *)
Lemma core_load1 : forall PAR n h l first r pend n' h' x, core (r :: pend) PAR n h l first -> ~ PAR (pred n) -> okty (kd r) (nty A r) ->
  exec1 A (n, h) (OLoad (pred n) r (pred n) (nty A r)) = Some (n', h', x) ->
  n' = n /\ h_init h' = h_init h /\ core pend PAR n h' ((OLoad (pred n) r (pred n) (nty A r), x) :: l) first.
Proof.
  intros PAR n h l first r pend n' h' x CO NP OT EX. destruct (co_inv _ _ _ _ _ _ CO) as (s & IV & AV & TP). pose proof (iv_n _ _ _ _ IV) as SN.
  destruct (co_pend _ _ _ _ _ _ CO r (or_introl eq_refl)) as (D & IN & LN). set (k := pred n) in *.
  assert (TPK : t_par s k = false). { destruct (t_par s k) eqn:E; [destruct (NP (TP _ E))|reflexivity]. }
  assert (LG : legal1 A s (OLoad k r k (nty A r))). { split; [lia|]. split; assumption. }
  pose proof (exec1_ok A s n h _ IV LG) as PO. rewrite EX in PO. destruct PO as (N' & IV' & PA). cbn [next] in N'. subst n'.
  cbn [exec1] in EX. injection EX as <- <-. split; [reflexivity|]. split; [reflexivity|].
  assert (NC : forall j, ilog l j <> InitParent k).
  { intros j E. rewrite (co_init _ _ _ _ _ _ CO) in E. destruct (iv_par _ _ _ _ IV _ _ E). congruence. }
  split.
  - eexists. split; [exact IV'|]. split.
    + intros k' r' L' M' P'. cbn [stat1 t_av]. unfold updb. destruct (keq_dec k r k' r') as [[<- <-]|Q]; [rewrite keq_refl; reflexivity|]. rewrite Q.
      apply AV; [assumption|assumption|]. intros E [->|X]; [|exact (P' E X)]. assert (k' = k) as -> by lia. rewrite keq_refl in Q. discriminate.
    + exact TP.
  - apply set_load_hok; [apply (co_hok _ _ _ _ _ _ CO)|assumption|assumption].
  - exact (co_n _ _ _ _ _ _ CO).
  - exact (co_init _ _ _ _ _ _ CO).
  - split; [apply (co_wf _ _ _ _ _ _ CO)|]. cbn [wfop]. rewrite (co_n _ _ _ _ _ _ CO). split; [lia|]. auto.
  - constructor.
    + intros k' E. cbn. split; [constructor|exact I].
    + exact (co_lat _ _ _ _ _ _ CO).
  - intros e E. destruct (PA e _ E (co_agree _ _ _ _ _ _ CO e E)) as [X _]. cbn [CfgLog.mlog]. rewrite (co_n _ _ _ _ _ _ CO). exact X.
  - intros e E. split; [apply (co_reads _ _ _ _ _ _ CO); assumption|]. exact I.
  - exact (co_fresh _ _ _ _ _ _ CO).
  - intros r' I'. apply (co_pend _ _ _ _ _ _ CO). right. assumption.
  - intros k' r' D' I' e s0 x0. cbn [CfgLog.rcell cstep]. destruct (keq_dec k' r' k r) as [[-> ->]|Q]; [destruct (I' IN)|]. rewrite Q.
    apply (co_clean _ _ _ _ _ _ CO); assumption.
  - intros k' r' D' I' M' L' P' e s0 x0. cbn [CfgLog.rcell cstep]. destruct (keq_dec k' r' k r) as [[-> ->]|Q]; [rewrite keq_refl; reflexivity|]. rewrite Q.
    apply (co_load _ _ _ _ _ _ CO); try assumption. intros E [->|X]; [|exact (P' E X)]. assert (k' = k) as -> by lia. rewrite keq_refl in Q. discriminate.
  - exact (co_first _ _ _ _ _ _ CO).
  - exact (co_phim _ _ _ _ _ _ CO).
  - intros k' r' D'. destruct (co_wr _ _ _ _ _ _ CO _ _ D') as (ox & X1 & X2). exists ox. split; [right|]; assumption.
  - intros k' r' ox [<-|I'] WR; [contradiction|]. exact (co_wr2 _ _ _ _ _ _ CO _ _ _ I' WR).
  - intros k' r' I' M' L' P' e s0 x0 x1. cbn [CfgLog.rcell cstep]. destruct (keq_dec k' r' k r) as [[-> ->]|Q]; [rewrite keq_refl; reflexivity|]. rewrite Q.
    apply (co_ld _ _ _ _ _ _ CO); try assumption. intros E [->|X]; [|exact (P' E X)]. assert (k' = k) as -> by lia. rewrite keq_refl in Q. discriminate.
  - split; [apply (co_rl _ _ _ _ _ _ CO)|]. rewrite (co_init _ _ _ _ _ _ CO). assumption.
Qed.

(** A new file. *)
Lemma core_new : forall (PAR PAR' : nat -> Prop) n h l first first' i, core [] PAR n h l first ->
  (forall b k, first b = Some k -> first' b = Some k) -> (forall b, i = InitPhi b -> first' b = Some n) ->
  (forall b k, first' b = Some k -> (k <= n)%nat) ->
  (forall p, i = InitParent p -> (p < n)%nat /\ PAR' p) -> (forall k, PAR k -> PAR' k) ->
  core (match i with InitNone => map fst (reg_slots A) | _ => [] end) PAR' (S n) (with_init h n i) ((ONew i, None) :: l) first'.
Proof.
  intros PAR PAR' n h l first first' i CO FF FP FL PP PI. destruct (co_inv _ _ _ _ _ _ CO) as (s & IV & AV & TP). pose proof (iv_n _ _ _ _ IV) as SN.
  assert (LG : legal1 A s (ONew i)). { cbn. destruct i; auto. rewrite SN. apply (PP p eq_refl). }
  destruct (with_init_ok A s n h i IV LG) as [IV' AG].
  destruct (iv_fresh _ _ _ _ IV n (GP 0) ltac:(lia)) as [_ IN].
  assert (EM : forall r, h_reg h n r = RVals false []) by (intros r; apply (iv_fresh _ _ _ _ IV); lia).
  split.
  - eexists. split; [exact IV'|]. split.
    + intros k r L' M' P'. cbn [stat1 t_av]. rewrite SN. destruct (Nat.eqb_spec k n) as [->|Q].
      * destruct i as [|p|b]; [destruct (P' eq_refl M')| |reflexivity]. apply AV; [apply (PP p eq_refl)|assumption|auto].
      * apply AV; [lia|assumption|auto].
    + intros k T'. cbn [stat1 t_par] in T'. destruct i as [|p|b]; auto. apply orb_prop in T'. destruct T' as [T'|T']; [|auto].
      apply Nat.eqb_eq in T'. subst. apply (PP p eq_refl).
  - apply (with_init_hok A own first first' h n i (co_hok _ _ _ _ _ _ CO) IN EM); [|assumption|].
    + intros b k F. split; [auto|]. eapply (co_first _ _ _ _ _ _ CO). eassumption.
    + intros p ->. apply (PP p eq_refl).
  - cbn. rewrite (co_n _ _ _ _ _ _ CO). reflexivity.
  - intros k. cbn. rewrite (co_n _ _ _ _ _ _ CO). destruct (Nat.eqb k n); [reflexivity|apply (co_init _ _ _ _ _ _ CO)].
  - split; [apply (co_wf _ _ _ _ _ _ CO)|]. cbn. rewrite (co_n _ _ _ _ _ _ CO). destruct i; auto. apply (PP p eq_refl).
  - constructor; [intros k E; discriminate|]. eapply lat_mono; [|apply (co_lat _ _ _ _ _ _ CO)].
    intros k [m t|b r|u r t]; cbn; auto. intros (X & j & Y & Z0). split; [assumption|]. exists j. split; [apply FF; assumption|assumption].
  - intros e E. cbn [CfgLog.mlog]. rewrite (co_n _ _ _ _ _ _ CO). apply AG; [assumption|]. apply (co_agree _ _ _ _ _ _ CO). assumption.
  - intros e E. split; [apply (co_reads _ _ _ _ _ _ CO); assumption|]. exact I.
  - intros k r L. cbn. apply (co_fresh _ _ _ _ _ _ CO). lia.
  - intros r I'. destruct i; [|contradiction..]. cbn. rewrite Nat.eqb_refl. split; [apply (co_fresh _ _ _ _ _ _ CO); lia|]. split; [reflexivity|lia].
  - intros k r D I' e s0 x0. cbn [CfgLog.rcell cstep with_init h_init h_dirty] in *. destruct (Nat.eqb_spec k n) as [->|Q].
    + apply rcell_fresh; [apply (co_wf _ _ _ _ _ _ CO)|rewrite (co_n _ _ _ _ _ _ CO); lia].
    + apply (co_clean _ _ _ _ _ _ CO); assumption.
  - intros k r D I' M' L' P' e s0 x0. cbn [CfgLog.rcell cstep with_init h_init h_dirty] in *. destruct (Nat.eqb_spec k n) as [->|Q].
    + subst i. destruct (P' eq_refl M').
    + apply (co_load _ _ _ _ _ _ CO); try assumption; [lia|auto].
  - intros b k F. specialize (FL b k F). lia.
  - exact (co_phim _ _ _ _ _ _ CO).
  - intros k' r' D'. destruct (co_wr _ _ _ _ _ _ CO _ _ D') as (ox & X1 & X2). exists ox. split; [right|]; assumption.
  - intros k' r' ox [<-|I'] WR; [contradiction|]. exact (co_wr2 _ _ _ _ _ _ CO _ _ _ I' WR).
  - intros k r I' M' L' P' e s0 x0 x1. cbn [CfgLog.rcell cstep with_init h_init] in *. destruct (Nat.eqb_spec k n) as [->|Q].
    + subst i. destruct (P' eq_refl M').
    + apply (co_ld _ _ _ _ _ _ CO); try assumption; [lia|auto].
  - split; [apply (co_rl _ _ _ _ _ _ CO)|exact I].
Qed.

(** ** Blocks *)
Definition PARf (f : fn) (k : nat) : Prop := exists b, f_file f b = Some k /\ f_succs f b <> [].
Record BS (f : fn) : Prop := {
  st_file : forall b k, f_file f b = Some k -> (k < f_n f)%nat /\ f_bb f k = b /\ (b < f_nb f)%nat /\ f_first f b <> None;
  st_first : forall b k, f_first f b = Some k -> (k < f_n f)%nat /\ f_bb f k = b /\ (b < f_nb f)%nat /\
             (b <> O -> h_init (f_h f) k <> InitNone) /\ (b = O -> k = O);
  st_0 : (0 < f_n f)%nat -> f_first f 0%nat = Some O /\ h_init (f_h f) 0%nat = InitNone;
  st_kind : forall k, (k < f_n f)%nat -> h_init (f_h f) k <> InitNone -> f_first f (f_bb f k) = Some k /\ f_bb f k <> O;
  st_par : forall k p, h_init (f_h f) k = InitParent p -> exists q, f_preds f (f_bb f k) = [q] /\ f_file f q = Some p /\ f_succs f q <> [];
  st_pack : forall p, In p (f_packs f) -> (pk_file p < f_n f)%nat /\ f_bb f (pk_file p) = pk_bb p /\ (forall b, f_file f b <> Some (pk_file p)) /\
            (forall k, pk_next p = Some k -> (k < f_n f)%nat /\ h_init (f_h f) k = InitNone /\ f_bb f k = pk_bb p);
  st_edge : forall b t, In t (f_succs f b) <-> In b (f_preds f t);
  st_nd : forall t, NoDup (f_preds f t);
  st_rng : forall b t, In t (f_succs f b) -> (0 < t < f_nb f)%nat /\ f_file f b <> None;
  st_max : forall t m, f_max f t = Some m -> (length (f_preds f t) <= m)%nat;
}.
Definition BI (f : fn) : Prop := core [] (PARf f) (f_n f) (f_h f) (f_log f) (f_first f) /\ BS f.

Lemma hok_ext : forall first first' h, (forall b, first b = first' b) -> hok A own first h -> hok A own first' h.
Proof.
  intros first first' h E HO. split.
  - intros k r. eapply rin_mono; [|apply (ho_in _ _ _ _ HO)]. intros [n t|b r'|u r' t]; cbn; auto. rewrite E. auto.
  - apply (ho_load _ _ _ _ HO).
  - apply (ho_nd _ _ _ _ HO).
  - intros b r X. rewrite <- E. apply (ho_phi _ _ _ _ HO). assumption.
  - intros k b X. rewrite <- E. apply (ho_iphi _ _ _ _ HO). assumption.
  - apply (ho_ipar _ _ _ _ HO).
Qed.
Lemma core_ext : forall pend (PAR PAR' : nat -> Prop) n h l first first', (forall b, first b = first' b) -> (forall k, PAR k -> PAR' k) ->
  core pend PAR n h l first -> core pend PAR' n h l first'.
Proof.
  intros pend PAR PAR' n h l first first' E P CO.
  split; [|eapply hok_ext; [exact E|]; apply (co_hok _ _ _ _ _ _ CO)|apply (co_n _ _ _ _ _ _ CO)|apply (co_init _ _ _ _ _ _ CO)|apply (co_wf _ _ _ _ _ _ CO)| |
    apply (co_agree _ _ _ _ _ _ CO)|apply (co_reads _ _ _ _ _ _ CO)|apply (co_fresh _ _ _ _ _ _ CO)|apply (co_pend _ _ _ _ _ _ CO)|apply (co_clean _ _ _ _ _ _ CO)|apply (co_load _ _ _ _ _ _ CO)| | | | | |].
  - destruct (co_inv _ _ _ _ _ _ CO) as (s & X & Y & Z0). exists s. auto.
  - eapply lat_mono; [|apply (co_lat _ _ _ _ _ _ CO)]. intros k [m t|b r'|u r' t]; cbn; auto. rewrite E. auto.
  - intros b k. rewrite <- E. apply (co_first _ _ _ _ _ _ CO).
  - apply (co_phim _ _ _ _ _ _ CO).
  - apply (co_wr _ _ _ _ _ _ CO).
  - apply (co_wr2 _ _ _ _ _ _ CO).
  - apply (co_ld _ _ _ _ _ _ CO).
  - apply (co_rl _ _ _ _ _ _ CO).
Qed.

Lemma nty_okty : forall r, okty (kd r) (nty A r).
Proof.
  intros [i|i|i]; unfold okty, kd, nty, native_size, native_facet; cbn [nz nb].
  - cbn. unfold okw. lia.
  - destruct (i =? 2); cbn; unfold okw; lia.
  - destruct A; cbn; unfold okw; lia.
Qed.
Lemma slots_native : forall r fc, In (r, fc) (reg_slots A) -> fc = native_facet A r.
Proof.
  assert (X : forallb (fun rf => facet_eqb (snd rf) (native_facet A (fst rf))) (reg_slots A) = true) by (destruct A; vm_compute; reflexivity).
  intros r fc I. rewrite forallb_forall in X. specialize (X _ I). cbn in X. unfold facet_eqb in X. destruct (facet_eq_dec fc (native_facet A r)); [assumption|discriminate].
Qed.

Definition same_shape (f f' : fn) : Prop :=
  f_n f' = f_n f /\ f_nb f' = f_nb f /\ f_max f' = f_max f /\ f_file f' = f_file f /\ f_preds f' = f_preds f /\ f_succs f' = f_succs f /\
  f_packs f' = f_packs f /\ f_first f' = f_first f /\ f_bb f' = f_bb f /\ h_init (f_h f') = h_init (f_h f).
Lemma same_shape_refl : forall f, same_shape f f. Proof. repeat split. Qed.
Lemma same_shape_trans : forall a b c, same_shape a b -> same_shape b c -> same_shape a c.
Proof. unfold same_shape. intuition congruence. Qed.
Lemma BS_same : forall f f', same_shape f f' -> BS f -> BS f'.
Proof.
  intros f f' (E1 & E2 & E3 & E4 & E5 & E6 & E7 & E8 & E9 & E10) B.
  split; rewrite ?E1, ?E2, ?E3, ?E4, ?E5, ?E6, ?E7, ?E8, ?E9, ?E10; apply B.
Qed.
Lemma PARf_same : forall f f', same_shape f f' -> PARf f' = PARf f.
Proof. intros f f' (E1 & E2 & E3 & E4 & E5 & E6 & E7 & E8 & E9 & E10). unfold PARf. rewrite E4, E6. reflexivity. Qed.

(** Pending loads of an unpack. *)
Lemma loads_core : forall l f f', core (map fst l) (PARf f) (f_n f) (f_h f) (f_log f) (f_first f) -> ~ PARf f (pred (f_n f)) ->
  (forall r fc, In (r, fc) l -> fc = native_facet A r) ->
  do_rops A f (map (fun '(r, fc) => OLoad (pred (f_n f)) r (pred (f_n f)) (facet_type fc)) l) = Some f' ->
  core [] (PARf f') (f_n f') (f_h f') (f_log f') (f_first f') /\ same_shape f f'.
Proof.
  induction l as [|[r fc] l IH]; intros f f' CO NP NF DO; cbn [map do_rops] in DO.
  - injection DO as <-. split; [exact CO|apply same_shape_refl].
  - destruct (do_rop A f _) as [f1|] eqn:D1; [|discriminate]. unfold do_rop in D1.
    assert (fc = native_facet A r) as -> by (apply NF; left; reflexivity). change (facet_type (native_facet A r)) with (nty A r) in D1.
    destruct (exec1 A (f_n f, f_h f) (OLoad (pred (f_n f)) r (pred (f_n f)) (nty A r))) as [[[n h] x]|] eqn:EX; [|discriminate]. injection D1 as <-.
    destruct (core_load1 _ _ _ _ _ _ _ _ _ _ CO NP (nty_okty r) EX) as (-> & HI & CO1).
    set (f1 := Fn _ _ _ _ _ _ _ _ _ _ _) in DO.
    assert (SS : same_shape f f1).
    { unfold same_shape; cbn; repeat split; auto. }
    destruct (IH f1 f' CO1 NP (fun r' fc' I => NF r' fc' (or_intror I)) DO) as [CO2 SS2]. split; [assumption|]. eapply same_shape_trans; eassumption.
Qed.

(** A new file for block [b]. *)
Lemma new_file_eq : forall f b i, new_file A f b i = Some (Fn (S (f_n f)) (with_init (f_h f) (f_n f) i) (f_nb f) (f_max f) (updn (f_file f) b (Some (f_n f)))
  (f_preds f) (f_succs f) (f_packs f) (match f_first f b with None => updn (f_first f) b (Some (f_n f)) | _ => f_first f end) (updn (f_bb f) (f_n f) b) ((ONew i, None) :: f_log f)).
Proof. reflexivity. Qed.

Lemma updn_eq : forall T (m : nat -> T) k x, updn m k x k = x.
Proof. intros. unfold updn. rewrite Nat.eqb_refl. reflexivity. Qed.
Lemma updn_ne : forall T (m : nat -> T) k x k', k' <> k -> updn m k x k' = m k'.
Proof. intros. unfold updn. destruct (Nat.eqb_spec k k'); congruence. Qed.

Lemma BI_block : forall f max, BI f -> BI (new_block f max).
Proof.
  intros f max [CO B].
  assert (NF : f_file f (f_nb f) = None). { destruct (f_file f (f_nb f)) eqn:E; [|reflexivity]. destruct (st_file _ B _ _ E) as (_ & _ & X & _). lia. }
  assert (NI : f_first f (f_nb f) = None). { destruct (f_first f (f_nb f)) eqn:E; [|reflexivity]. destruct (st_first _ B _ _ E) as (_ & _ & X & _). lia. }
  assert (NS : f_succs f (f_nb f) = []). { destruct (f_succs f (f_nb f)) as [|t l] eqn:E; [reflexivity|]. destruct (st_rng _ B (f_nb f) t) as [_ X]; [rewrite E; left; reflexivity|]. contradiction. }
  assert (NP : f_preds f (f_nb f) = []).
  { destruct (f_preds f (f_nb f)) as [|t l] eqn:E; [reflexivity|]. destruct (st_rng _ B t (f_nb f)) as [X _]; [|lia]. apply (st_edge _ B). rewrite E. left. reflexivity. }
  assert (UP : forall T (m : nat -> T) x, m (f_nb f) = x -> forall b, updn m (f_nb f) x b = m b).
  { intros T m x E b. unfold updn. destruct (Nat.eqb_spec (f_nb f) b); [subst b; auto|reflexivity]. }
  split.
  - eapply core_ext; [| |exact CO].
    + intros b. cbn. symmetry. apply UP. assumption.
    + intros k (b & X & Y). exists b. cbn. rewrite !UP by assumption. auto.
  - split; cbn.
    + intros b k. rewrite !UP by assumption. intros E. destruct (st_file _ B b k E) as (X1 & X2 & X3 & X4). repeat split; try assumption; lia.
    + intros b k. rewrite UP by assumption. intros E. destruct (st_first _ B b k E) as (X1 & X2 & X3 & X4 & X5). repeat split; try assumption; lia.
    + rewrite UP by assumption. apply (st_0 _ B).
    + intros k. rewrite UP by assumption. apply (st_kind _ B).
    + intros k p E. destruct (st_par _ B k p E) as (q & X). exists q. rewrite !UP by assumption. assumption.
    + intros p I. destruct (st_pack _ B p I) as (X1 & X2 & X3 & X4). repeat split; try assumption; try (apply (X4 k H0)). intros b. rewrite UP by assumption. apply X3.
    + intros b t. rewrite !UP by assumption. apply (st_edge _ B).
    + intros t. rewrite UP by assumption. apply (st_nd _ B).
    + intros b t. rewrite !UP by assumption. intros I. destruct (st_rng _ B b t I). split; [lia|assumption].
    + intros t m. rewrite (UP _ (f_preds f)) by assumption. unfold updn. destruct (Nat.eqb_spec (f_nb f) t); [subst t; rewrite NP; intros; cbn; lia|apply (st_max _ B)].
Qed.

Lemma BI_entry : forall f f', BI f -> f_n f = O -> (0 < f_nb f)%nat -> unpack A f 0 = Some f' -> BI f'.
Proof.
  intros f f' [CO B] N0 NB U. unfold unpack in U. rewrite new_file_eq in U.
  assert (NI : forall b, f_first f b = None). { intros b. destruct (f_first f b) eqn:E; [|reflexivity]. destruct (st_first _ B _ _ E). lia. }
  assert (NF : forall b, f_file f b = None). { intros b. destruct (f_file f b) eqn:E; [|reflexivity]. destruct (st_file _ B _ _ E). lia. }
  rewrite NI in U. set (f1 := Fn _ _ _ _ _ _ _ _ _ _ _) in U.
  assert (C1 : core (map fst (reg_slots A)) (PARf f1) (f_n f1) (f_h f1) (f_log f1) (f_first f1)).
  { apply (core_new (PARf f) (PARf f1) (f_n f) (f_h f) (f_log f) (f_first f) (f_first f1) InitNone); try assumption; try discriminate.
    - intros b k E. rewrite NI in E. discriminate.
    - cbn. intros b k E. unfold updn in E. destruct (Nat.eqb 0 b); [injection E as <-; lia|rewrite NI in E; discriminate].
    - intros k (b & E & _). rewrite NF in E. discriminate. }
  assert (S0 : forall b, f_succs f b = []).
  { intros b. destruct (f_succs f b) as [|t l] eqn:E; [reflexivity|]. destruct (st_rng _ B b t) as [_ X]; [rewrite E; left; reflexivity|]. destruct (X (NF b)). }
  change (f_n f) with (pred (f_n f1)) in U.
  destruct (loads_core (reg_slots A) f1 f' C1) as [C2 SS].
  { intros (b & _ & X). cbn in X. rewrite S0 in X. destruct (X eq_refl). }
  { apply slots_native. }
  { exact U. }
  split; [assumption|]. apply (BS_same f1); [assumption|]. split; cbn; rewrite ?N0.
  - intros b k E. unfold updn in *. destruct (Nat.eqb_spec 0 b); [|rewrite NF in E; discriminate]. injection E as <-. subst b. rewrite Nat.eqb_refl. repeat split; try lia; discriminate.
  - intros b k E. unfold updn in *. destruct (Nat.eqb_spec 0 b); [|rewrite NI in E; discriminate]. injection E as <-. subst b. rewrite Nat.eqb_refl. repeat split; try lia.
  - intros _. split; reflexivity.
  - intros k L X. assert (k = O) as -> by lia. cbn in X. destruct (X eq_refl).
  - intros k p. destruct (Nat.eqb_spec k 0); [discriminate|]. intros E. destruct (st_par _ B k p E) as (q & _ & X & _). rewrite NF in X. discriminate.
  - intros p I. destruct (st_pack _ B p I). lia.
  - apply (st_edge _ B).
  - apply (st_nd _ B).
  - intros b t I. rewrite S0 in I. destruct I.
  - apply (st_max _ B).
Qed.

Lemma BI_init : forall f b seal f', BI f -> (0 < b < f_nb f)%nat -> f_first f b = None -> (0 < f_n f)%nat -> init_with_phis A f b seal = Some f' -> BI f'.
Proof.
  intros f b seal f' [CO B] LB FB LN I.
  assert (NF : f_file f b = None). { destruct (f_file f b) eqn:E; [|reflexivity]. destruct (st_file _ B _ _ E) as (_ & _ & _ & X). congruence. }
  assert (Q : exists i, new_file A f b i = Some f' /\ (i = InitPhi b \/ exists q kp, i = InitParent kp /\ f_preds f b = [q] /\ f_file f q = Some kp)).
  { unfold init_with_phis in I. destruct (f_preds f b) as [|q [|q2 l]] eqn:P; try (exists (InitPhi b); auto; fail).
    destruct (seal || _); [|exists (InitPhi b); auto]. destruct (f_file f q) as [kp|] eqn:K; [|discriminate]. exists (InitParent kp). split; [assumption|]. right. exists q, kp. auto. }
  destruct Q as (i & NEW & II). rewrite new_file_eq, FB in NEW. injection NEW as <-.
  assert (NN : i <> InitNone). { destruct II as [->|(q & kp & -> & _)]; discriminate. }
  assert (IP : forall p, i = InitParent p -> exists q, f_preds f b = [q] /\ f_file f q = Some p /\ f_succs f q <> [] /\ q <> b).
  { intros p ->. destruct II as [X|(q & kp & X & Y & Z0)]; [discriminate|]. injection X as ->. exists q. split; [assumption|]. split; [assumption|]. split; [|congruence].
    assert (IN : In b (f_succs f q)) by (apply (st_edge _ B); rewrite Y; left; reflexivity). intros E. rewrite E in IN. destruct IN. }
  assert (NBB : forall k, (k < f_n f)%nat -> updn (f_bb f) (f_n f) b k = f_bb f k) by (intros; apply updn_ne; lia).
  split.
  - cbn. set (f1 := Fn _ _ _ _ _ _ _ _ _ _ _). replace (@nil areg) with (match i with InitNone => map fst (reg_slots A) | _ => [] end) by (destruct i; [contradiction|reflexivity|reflexivity]).
    apply (core_new (PARf f) (PARf f1) (f_n f) (f_h f) (f_log f) (f_first f) _ i CO).
    + intros b' k E. rewrite updn_ne by congruence. assumption.
    + intros b' ->. destruct II as [X|(q & kp & X & _)]; [|discriminate]. injection X as ->. apply updn_eq.
    + intros b' k E. destruct (Nat.eq_dec b' b) as [->|Q]; [rewrite updn_eq in E; injection E as <-; lia|]. rewrite updn_ne in E by assumption.
      destruct (st_first _ B _ _ E). lia.
    + intros p E. destruct (IP p E) as (q & X1 & X2 & X3 & X4). split; [apply (st_file _ B q p X2)|]. exists q. cbn. rewrite updn_ne by assumption. auto.
    + intros k (b' & X & Y). exists b'. cbn. rewrite updn_ne by congruence. auto.
  - split; cbn.
    + intros b' k E. destruct (Nat.eq_dec b' b) as [->|Q].
      * rewrite updn_eq in E. injection E as <-. rewrite !updn_eq. repeat split; try lia; discriminate.
      * rewrite updn_ne in E by assumption. destruct (st_file _ B _ _ E) as (X1 & X2 & X3 & X4). rewrite NBB, updn_ne by assumption. repeat split; try assumption; lia.
    + intros b' k E. destruct (Nat.eq_dec b' b) as [->|Q].
      * rewrite updn_eq in E. injection E as <-. rewrite !updn_eq, Nat.eqb_refl. repeat split; try lia; auto.
      * rewrite updn_ne in E by assumption. destruct (st_first _ B _ _ E) as (X1 & X2 & X3 & X4 & X5). rewrite NBB by assumption.
        destruct (Nat.eqb_spec k (f_n f)); [lia|]. repeat split; try assumption; lia.
    + intros _. rewrite updn_ne by lia. destruct (st_0 _ B LN) as [X1 X2]. split; [assumption|]. destruct (f_n f); [lia|assumption].
    + intros k L. destruct (Nat.eqb_spec k (f_n f)) as [->|Q].
      * intros _. rewrite !updn_eq. split; [reflexivity|lia].
      * intros X. rewrite NBB by lia. destruct (st_kind _ B k ltac:(lia) X) as [X1 X2]. rewrite updn_ne by congruence. auto.
    + intros k p. destruct (Nat.eqb_spec k (f_n f)) as [->|Q].
      * intros E. destruct (IP p E) as (q & X1 & X2 & X3 & X4). exists q. rewrite updn_eq, updn_ne by assumption. auto.
      * intros E. destruct (st_par _ B k p E) as (q & X1 & X2 & X3). exists q.
        assert (LK : (k < f_n f)%nat).
        { destruct (co_inv _ _ _ _ _ _ CO) as (s & IV & _). destruct (Nat.lt_ge_cases k (f_n f)) as [|G]; [assumption|].
          destruct (iv_fresh _ _ _ _ IV k (GP 0) G) as [_ Y]. congruence. }
        rewrite NBB by assumption. rewrite updn_ne by congruence. auto.
    + intros p IN. destruct (st_pack _ B p IN) as (X1 & X2 & X3 & X4). rewrite NBB by assumption. split; [lia|]. split; [assumption|]. split.
      * intros b'. destruct (Nat.eq_dec b' b) as [->|Q]; [rewrite updn_eq; intros E; injection E as E; lia|rewrite updn_ne by assumption; apply X3].
      * intros k E. destruct (X4 k E) as (Y1 & Y2 & Y3). rewrite NBB by assumption. destruct (Nat.eqb_spec k (f_n f)); [lia|]. repeat split; try assumption; lia.
    + apply (st_edge _ B).
    + apply (st_nd _ B).
    + intros b' t IN. destruct (st_rng _ B b' t IN) as [X1 X2]. split; [assumption|]. unfold updn. destruct (Nat.eqb b b'); [discriminate|assumption].
    + apply (st_max _ B).
Qed.

Lemma BI_reg : forall f b w f', BI f -> clegal f (CReg b w) -> cexec1 A f (CReg b w) = Some f' -> BI f' /\ same_shape f f'.
Proof.
  intros f b w f' [CO B] (LB & NS & MR & WT & VI) EX. cbn [cexec1] in EX. destruct (f_file f b) as [k|] eqn:K; [|discriminate].
  unfold do_rop in EX. destruct (exec1 A (f_n f, f_h f) (to_rop k w)) as [[[n h] x]|] eqn:E1; [|discriminate]. injection EX as <-.
  assert (NP : ~ PARf f k).
  { intros (b' & X & Y). destruct (st_file _ B _ _ X) as (_ & X1 & _). destruct (st_file _ B _ _ K) as (_ & X2 & _). congruence. }
  destruct (core_rw (PARf f) (f_n f) (f_h f) (f_log f) (f_first f) (to_rop k w) k n h x CO) as (-> & HI & C1).
  - destruct w; exact I.
  - destruct w; reflexivity.
  - apply (st_file _ B _ _ K).
  - assumption.
  - destruct w; assumption.
  - destruct w; assumption.
  - specialize (VI k eq_refl). destruct w; assumption.
  - assumption.
  - set (f1 := Fn _ _ _ _ _ _ _ _ _ _ _). assert (SS : same_shape f f1) by (unfold same_shape; cbn; repeat split; assumption).
    split; [|assumption]. split; [exact C1|]. apply (BS_same f); assumption.
Qed.

Lemma BI_ret : forall f b f', BI f -> clegal f (CRet b) -> cexec1 A f (CRet b) = Some f' -> BI f'.
Proof.
  intros f b f' [CO B] (LB & NS) EX. cbn [cexec1] in EX. unfold do_ret, do_pack in EX. destruct (f_file f b) as [k|] eqn:K; [|discriminate]. injection EX as <-.
  assert (UP : forall b' k', updn (f_file f) b None b' = Some k' -> f_file f b' = Some k').
  { intros b' k'. unfold updn. destruct (Nat.eqb b b'); [discriminate|auto]. }
  assert (UN : forall b', f_succs f b' <> [] -> updn (f_file f) b None b' = f_file f b').
  { intros b' X. apply updn_ne. congruence. }
  destruct (st_file _ B _ _ K) as (K1 & K2 & K3 & K4). split.
  - cbn. eapply core_ext; [reflexivity| |exact CO]. intros k' (b' & X & Y). exists b'. cbn. rewrite UN by assumption. auto.
  - split; cbn.
    + intros b' k' E. apply (st_file _ B). auto.
    + apply (st_first _ B).
    + apply (st_0 _ B).
    + apply (st_kind _ B).
    + intros k' p E. destruct (st_par _ B k' p E) as (q & X1 & X2 & X3). exists q. rewrite UN by assumption. auto.
    + intros p I. apply in_app_or in I. destruct I as [I|[<-|[]]].
      * destruct (st_pack _ B p I) as (X1 & X2 & X3 & X4). split; [assumption|]. split; [assumption|]. split; [|assumption]. intros b' E. apply (X3 b'). auto.
      * cbn. split; [assumption|]. split; [assumption|]. split; [|discriminate]. intros b' E. pose proof (UP _ _ E) as E'. destruct (st_file _ B _ _ E') as (_ & X & _).
        assert (Q : b' = b) by congruence. rewrite Q, updn_eq in E. discriminate.
    + apply (st_edge _ B).
    + apply (st_nd _ B).
    + intros b' t I. destruct (st_rng _ B b' t I) as [X1 X2]. split; [assumption|]. rewrite UN; [assumption|]. intros E. rewrite E in I. destruct I.
    + apply (st_max _ B).
Qed.

Lemma BI_call : forall f b f', BI f -> clegal f (CCall b) -> cexec1 A f (CCall b) = Some f' -> BI f'.
Proof.
  intros f b f' [CO B] (LB & NS) EX. cbn [cexec1] in EX. unfold do_call, do_pack in EX. destruct (f_file f b) as [k|] eqn:K; [|discriminate].
  destruct (st_file _ B _ _ K) as (K1 & K2 & K3 & K4).
  unfold unpack in EX. rewrite new_file_eq in EX. cbn [f_n f_h f_nb f_max f_file f_preds f_succs f_packs f_first f_bb f_log] in EX.
  destruct (f_first f b) as [k0|] eqn:FB; [|destruct (K4 eq_refl)].
  set (f1 := Fn _ _ _ _ _ _ _ _ _ _ _) in EX.
  assert (UF : forall b', b' <> b -> f_file f1 b' = f_file f b').
  { intros b' Q. cbn. rewrite !updn_ne by assumption. reflexivity. }
  assert (FB1 : f_file f1 b = Some (f_n f)) by (cbn; apply updn_eq).
  assert (NBB : forall k, (k < f_n f)%nat -> f_bb f1 k = f_bb f k) by (intros; cbn; apply updn_ne; lia).
  assert (NSB : forall b', f_succs f b' <> [] -> b' <> b) by congruence.
  assert (C1 : core (map fst (reg_slots A)) (PARf f1) (f_n f1) (f_h f1) (f_log f1) (f_first f1)).
  { apply (core_new (PARf f) (PARf f1) (f_n f) (f_h f) (f_log f) (f_first f) (f_first f1) InitNone); try assumption; try discriminate.
    - auto.
    - cbn. intros b' k' E. destruct (st_first _ B _ _ E). lia.
    - intros k' (b' & X & Y). exists b'. rewrite UF by auto. auto. }
  change (f_n f) with (pred (f_n f1)) in EX.
  destruct (loads_core (reg_slots A) f1 f' C1) as [C2 SS].
  { intros (b' & X & Y). pose proof (NSB b' Y) as Q. rewrite UF in X by assumption. destruct (st_file _ B _ _ X) as [L _]. cbn in L. lia. }
  { apply slots_native. }
  { exact EX. }
  split; [assumption|]. apply (BS_same f1); [assumption|]. split.
  - intros b' k' E. destruct (Nat.eq_dec b' b) as [->|Q].
    + rewrite FB1 in E. injection E as <-. cbn. rewrite updn_eq. repeat split; try lia. congruence.
    + rewrite UF in E by assumption. destruct (st_file _ B _ _ E) as (X1 & X2 & X3 & X4). rewrite NBB by assumption. cbn. repeat split; try assumption; lia.
  - intros b' k' E. destruct (st_first _ B _ _ E) as (X1 & X2 & X3 & X4 & X5). rewrite NBB by assumption. cbn. destruct (Nat.eqb_spec k' (f_n f)); [lia|].
    repeat split; try assumption; lia.
  - intros _. cbn. destruct (st_0 _ B ltac:(lia)) as [X1 X2]. split; [assumption|]. destruct (f_n f); [lia|assumption].
  - intros k' L. cbn in L. cbn. destruct (Nat.eqb_spec k' (f_n f)) as [->|Q]; [intros X; destruct (X eq_refl)|]. intros X. rewrite updn_ne by assumption. apply (st_kind _ B); [lia|assumption].
  - intros k' p. cbn. destruct (Nat.eqb_spec k' (f_n f)) as [->|Q]; [discriminate|]. intros E. destruct (st_par _ B k' p E) as (q & X1 & X2 & X3). exists q.
    rewrite !updn_ne by auto. auto.
  - intros p I. cbn in I. apply in_app_or in I. destruct I as [I|[<-|[]]].
    + destruct (st_pack _ B p I) as (X1 & X2 & X3 & X4). rewrite NBB by assumption. split; [cbn; lia|]. split; [assumption|]. split.
      * intros b'. destruct (Nat.eq_dec b' b) as [->|Q]; [rewrite FB1; intros E; injection E as E; lia|rewrite UF by assumption; apply X3].
      * intros k' E. destruct (X4 k' E) as (Y1 & Y2 & Y3). rewrite NBB by assumption. cbn. destruct (Nat.eqb_spec k' (f_n f)); [lia|]. repeat split; try assumption; lia.
    + cbn [pk_file pk_bb pk_next]. rewrite NBB by assumption. split; [cbn; lia|]. split; [assumption|]. split.
      * intros b'. destruct (Nat.eq_dec b' b) as [->|Q]; [rewrite FB1; intros E; injection E as E; lia|rewrite UF by assumption].
        intros E. destruct (st_file _ B _ _ E) as (_ & X & _). congruence.
      * intros k' E. injection E as <-. cbn. rewrite Nat.eqb_refl, updn_eq. repeat split; lia.
  - apply (st_edge _ B).
  - apply (st_nd _ B).
  - intros b' t I. destruct (st_rng _ B b' t I) as [X1 X2]. split; [assumption|]. rewrite UF; [assumption|]. apply NSB. intros E. cbn in I. rewrite E in I. destruct I.
  - apply (st_max _ B).
Qed.

(** Adding one edge. *)
Lemma NoDup_snoc : forall T (l : list T) x, NoDup l -> ~ In x l -> NoDup (l ++ [x]).
Proof.
  intros T l x ND NI. induction ND as [|y l NY ND IH]; cbn; [constructor; [intros []|constructor]|]. constructor.
  - intros I. apply in_app_or in I. destruct I as [I|[->|[]]]; [contradiction|]. apply NI. left. reflexivity.
  - apply IH. intros I. apply NI. right. assumption.
Qed.
Definition add_edges (f : fn) (b : nat) (ts : list nat) (preds : nat -> list nat) : fn :=
  Fn (f_n f) (f_h f) (f_nb f) (f_max f) (f_file f) preds (updn (f_succs f) b ts) (f_packs f) (f_first f) (f_bb f) (f_log f).
Lemma BI_edges : forall f b ts preds, BI f -> f_succs f b = [] -> f_file f b <> None -> (forall t, In t ts -> target_ok f t) ->
  (forall t, preds t = if in_dec Nat.eq_dec t ts then f_preds f t ++ [b] else f_preds f t) -> BI (add_edges f b ts preds).
Proof.
  intros f b ts preds [CO B] NS NF TO PE.
  assert (US : forall b', f_succs f b' <> [] -> updn (f_succs f) b ts b' = f_succs f b') by (intros; apply updn_ne; congruence).
  assert (NP : forall t, ~ In b (f_preds f t)). { intros t I. apply (st_edge _ B) in I. rewrite NS in I. destruct I. }
  split.
  - cbn. eapply core_ext; [reflexivity| |exact CO]. intros k' (b' & X & Y). exists b'. cbn. rewrite US by assumption. auto.
  - split; cbn; try apply B.
    + intros k p E. destruct (st_par _ B k p E) as (q & X1 & X2 & X3). exists q. rewrite US by assumption. split; [|auto]. rewrite PE.
      destruct (in_dec Nat.eq_dec (f_bb f k) ts) as [I|_]; [|assumption]. destruct (TO _ I) as (_ & _ & X).
      assert (LK : (k < f_n f)%nat).
      { destruct (co_inv _ _ _ _ _ _ CO) as (s & IV & _). destruct (Nat.lt_ge_cases k (f_n f)) as [|G]; [assumption|].
        destruct (iv_fresh _ _ _ _ IV k (GP 0) G) as [_ Y]. congruence. }
      destruct (st_kind _ B k LK ltac:(congruence)) as [Y _]. destruct (X k p Y E).
    + intros b' t. rewrite PE. destruct (Nat.eq_dec b' b) as [->|Q].
      * rewrite updn_eq. destruct (in_dec Nat.eq_dec t ts); [|split; [contradiction|intros I; destruct (NP _ I)]]. split; [intros _; apply in_or_app; right; left; reflexivity|auto].
      * rewrite updn_ne by assumption. rewrite (st_edge _ B). destruct (in_dec Nat.eq_dec t ts); [|reflexivity]. rewrite in_app_iff. cbn. intuition congruence.
    + intros t. rewrite PE. destruct (in_dec Nat.eq_dec t ts); [apply NoDup_snoc; [apply (st_nd _ B)|apply NP]|apply (st_nd _ B)].
    + intros b' t. destruct (Nat.eq_dec b' b) as [->|Q]; [rewrite updn_eq; intros I; split; [apply (TO t I)|assumption]|rewrite updn_ne by assumption; apply (st_rng _ B)].
    + intros t m E. rewrite PE. destruct (in_dec Nat.eq_dec t ts) as [I|_]; [|apply (st_max _ B); assumption]. destruct (TO t I) as (_ & X & _). rewrite E in X. rewrite app_length. cbn. lia.
Qed.
Lemma BI_br : forall f b t f', BI f -> (b < f_nb f)%nat -> target_ok f t -> branch_to f b t = Some f' -> BI f'.
Proof.
  intros f b t f' BB LB TO EX. unfold branch_to in EX. destruct (f_file f b) as [k|] eqn:K; [|discriminate]. destruct (f_succs f b) eqn:NS; [|discriminate]. injection EX as <-.
  apply (BI_edges f b [t]); try assumption; try congruence.
  - intros t' [<-|[]]. assumption.
  - intros t'. unfold updn. destruct (in_dec Nat.eq_dec t' [t]) as [[->|[]]|NI]; [rewrite Nat.eqb_refl; reflexivity|]. destruct (Nat.eqb_spec t t'); [destruct NI; left; assumption|reflexivity].
Qed.
Lemma BI_cond : forall f b t o f', BI f -> (b < f_nb f)%nat -> target_ok f t -> target_ok f o -> cond_branch_to f b t o = Some f' -> BI f'.
Proof.
  intros f b t o f' BB LB TO TO2 EX. unfold cond_branch_to in EX. destruct (Nat.eqb_spec t o) as [->|Q]; [eapply BI_br; eassumption|].
  destruct (f_file f b) as [k|] eqn:K; [|discriminate]. destruct (f_succs f b) eqn:NS; [|discriminate]. injection EX as <-.
  apply (BI_edges f b [t; o]); try assumption; try congruence.
  - intros t' [<-|[<-|[]]]; assumption.
  - intros t'. unfold updn. destruct (in_dec Nat.eq_dec t' [t; o]) as [[->|[->|[]]]|NI].
    + rewrite Nat.eqb_refl. destruct (Nat.eqb_spec o t'); [congruence|reflexivity].
    + rewrite Nat.eqb_refl. destruct (Nat.eqb_spec t t'); [congruence|reflexivity].
    + destruct (Nat.eqb_spec o t'); [destruct NI; right; left; assumption|]. destruct (Nat.eqb_spec t t'); [destruct NI; left; assumption|reflexivity].
Qed.

Lemma BI0 : BI fn0.
Proof.
  split; [apply core0|]. split; cbn; try discriminate; try (intros; lia); try (intros; contradiction).
  intros _. constructor.
Qed.
(** Only blocks with one announced predecessor, and the exit block, take over their
    predecessor's register file. *)
Definition pinv (f : fn) : Prop :=
  forall k p, h_init (f_h f) k = InitParent p -> (k < f_n f)%nat /\ match f_max f (f_bb f k) with Some m => m = 1%nat | None => True end.
Lemma room_ok : forall f t, BI f -> pinv f -> target_room f t -> target_ok f t.
Proof.
  intros f t [_ B] PI (LT & RM). split; [assumption|]. split; [destruct (f_max f t); [assumption|exact I]|].
  intros k p F E. destruct (st_first _ B _ _ F) as (_ & BK & _). destruct (st_par _ B k p E) as (q & PQ & _). destruct (PI k p E) as [_ M].
  rewrite BK in *. destruct (f_max f t); [rewrite PQ in RM; cbn in RM; lia|congruence].
Qed.
Lemma pinv_new : forall f b i f', pinv f -> (forall p, i = InitParent p -> match f_max f b with Some m => m = 1%nat | None => True end) ->
  new_file A f b i = Some f' -> pinv f'.
Proof.
  intros f b i f' PI HI E. rewrite new_file_eq in E. injection E as <-. intros k p. cbn. unfold updn. rewrite (Nat.eqb_sym (f_n f) k).
  destruct (Nat.eqb_spec k (f_n f)) as [->|Q]; intros E; [split; [lia|exact (HI p E)]|]. destruct (PI k p E). split; [lia|assumption].
Qed.
Lemma pinv_loads : forall l f f', do_rops A f l = Some f' -> (forall o, In o l -> exists k r u t, o = OLoad k r u t) -> pinv f -> pinv f'.
Proof.
  induction l as [|o l IH]; intros f f' E HL PI; cbn [do_rops] in E; [injection E as <-; assumption|].
  destruct (HL o (or_introl eq_refl)) as (k & r & u & t & ->). unfold do_rop in E. cbn [exec1] in E.
  eapply IH; [exact E|intros; apply HL; right; assumption|]. exact PI.
Qed.
Lemma pinv_unpack : forall f b f', pinv f -> unpack A f b = Some f' -> pinv f'.
Proof.
  intros f b f' PI E. unfold unpack in E. destruct (new_file A f b InitNone) as [f1|] eqn:N; [|discriminate].
  eapply pinv_loads; [exact E| |apply (pinv_new f b InitNone f1 PI); [intros p E'; discriminate E'|exact N]].
  intros o I. apply in_map_iff in I. destruct I as ([r fc] & <- & _). eauto.
Qed.
Lemma pinv_step : forall f o f', BI f -> pinv f -> clegal f o -> cexec1 A f o = Some f' -> pinv f'.
Proof.
  intros f o f' BB PI LG EX. pose proof BB as BB0. destruct BB0 as [_ B].
  destruct o as [max| |b seal|b w|b|b|b t|b t o]; cbn [cexec1] in EX.
  - injection EX as <-. intros k p E. destruct (PI k p E) as [L M]. split; [assumption|]. cbn. unfold updn.
    destruct (Nat.eqb_spec (f_nb f) (f_bb f k)) as [Q|]; [|assumption]. destruct (st_par _ B k p E) as (q & PQ & _).
    destruct (st_rng _ B q (f_bb f k)) as [X _]; [|lia]. apply (st_edge _ B). rewrite PQ. left. reflexivity.
  - eapply pinv_unpack; eassumption.
  - destruct LG as (_ & _ & _ & SE). unfold init_with_phis in EX.
    assert (PH : new_file A f b (InitPhi b) = Some f' -> pinv f') by (intros E; apply (pinv_new f b (InitPhi b) f' PI); [intros p E'; discriminate E'|exact E]).
    destruct (f_preds f b) as [|q [|]]; auto. destruct (seal || _) eqn:SB; auto. destruct (f_file f q) as [k|]; [|discriminate].
    eapply pinv_new; [exact PI| |exact EX]. intros p _. destruct seal; [rewrite (SE eq_refl); exact I|].
    destruct (f_max f b) as [[|[|m]]|]; try discriminate; reflexivity.
  - destruct (BI_reg f b w f' BB LG EX) as [_ (E1 & E2 & E3 & E4 & E5 & E6 & E7 & E8 & E9 & E10)]. unfold pinv. rewrite E1, E3, E9, E10. exact PI.
  - unfold do_call in EX. destruct (do_pack f b _) as [f1|] eqn:P1; [|discriminate]. eapply pinv_unpack; [|exact EX].
    unfold do_pack in P1. destruct (f_file f b); [|discriminate]. injection P1 as <-. exact PI.
  - unfold do_ret, do_pack in EX. destruct (f_file f b); [|discriminate]. injection EX as <-. exact PI.
  - unfold branch_to in EX. destruct (f_file f b); [|discriminate]. destruct (f_succs f b); [|discriminate]. injection EX as <-. exact PI.
  - unfold cond_branch_to, branch_to in EX. destruct (Nat.eqb t o); (destruct (f_file f b); [|discriminate]); (destruct (f_succs f b); [|discriminate]); injection EX as <-; exact PI.
Qed.
Theorem built_BI0 : forall f, built f -> BI f /\ pinv f.
Proof.
  intros f BT. induction BT as [|f o f' BT [IH PI] LG EX]; [split; [apply BI0|intros k p E; discriminate]|].
  split; [|eapply pinv_step; eassumption]. destruct o as [max| |b seal|b w|b|b|b t|b t o].
  - injection EX as <-. apply BI_block. assumption.
  - destruct LG. eapply BI_entry; eassumption.
  - destruct LG as (X1 & X2 & X3 & _). eapply BI_init; eassumption.
  - eapply BI_reg; eassumption.
  - eapply BI_call; eassumption.
  - eapply BI_ret; eassumption.
  - destruct LG as (X1 & X2). apply (BI_br f b t f' IH X1); [apply room_ok; assumption|exact EX].
  - destruct LG as (X1 & X2 & X3). apply (BI_cond f b t o f' IH X1); [apply room_ok; assumption..|exact EX].
Qed.
Theorem built_BI : forall f, built f -> BI f.
Proof. intros f BT. apply (built_BI0 f BT). Qed.

(** ** Later reads *)
Lemma native_ok : forall r, facet_ok (kd r) (native_facet A r) /\ native_facet A r <> I8H.
Proof.
  intros [i|i|i]; unfold facet_ok, kd, okty, native_size, native_facet; cbn [nz nb].
  - cbn. unfold okw. split; [lia|discriminate].
  - destruct (i =? 2); cbn; unfold okw; (split; [lia|discriminate]).
  - destruct A; cbn; unfold okw; (split; [lia|discriminate]).
Qed.
(** What reads of registers do to a function. *)
Record rext (P : areg -> Prop) (f f' : fn) : Prop := {
  rx_shape : same_shape f f';
  rx_log : f_log f' = f_log f;
  rx_dirty : h_dirty (f_h f') = h_dirty (f_h f);
  rx_phis : exists l, h_phis (f_h f') = h_phis (f_h f) ++ l /\ Forall (fun x => P (snd x)) l;
  rx_loads : forall x, In x (h_loads (f_h f)) -> In x (h_loads (f_h f'));
  rx_new : forall u r, In (u, r) (h_loads (f_h f')) -> In (u, r) (h_loads (f_h f)) \/ h_dirty (f_h f) u r = false /\ h_init (f_h f) u = InitNone;
}.
Lemma rext_refl : forall P f, rext P f f.
Proof. intros P f. split; auto; [apply same_shape_refl|exists []; rewrite app_nil_r; auto]. Qed.
Lemma rext_trans : forall P a b c, rext P a b -> rext P b c -> rext P a c.
Proof.
  intros P a b c X Y. split.
  - eapply same_shape_trans; [apply X|apply Y].
  - rewrite (rx_log _ _ _ Y). apply X.
  - rewrite (rx_dirty _ _ _ Y). apply X.
  - destruct (rx_phis _ _ _ X) as (l1 & E1 & F1), (rx_phis _ _ _ Y) as (l2 & E2 & F2). exists (l1 ++ l2). rewrite E2, E1, app_assoc. split; [reflexivity|]. apply Forall_app. auto.
  - intros x I. apply (rx_loads _ _ _ Y), (rx_loads _ _ _ X). assumption.
  - intros u r I. destruct (rx_new _ _ _ Y u r I) as [Z0|[Z0 Z1]]; [apply (rx_new _ _ _ X); assumption|]. right. rewrite (rx_dirty _ _ _ X) in Z0.
    destruct (rx_shape _ _ _ X) as (_ & _ & _ & _ & _ & _ & _ & _ & _ & E). rewrite E in Z1. auto.
Qed.
Lemma rext_imp : forall (P Q : areg -> Prop) a b, (forall r, P r -> Q r) -> rext P a b -> rext Q a b.
Proof.
  intros P Q a b I X. split; try apply X. destruct (rx_phis _ _ _ X) as (l & E & F). exists l. split; [assumption|]. eapply Forall_impl; [|exact F]. auto.
Qed.
Lemma rext_aok : forall P f f' k a, rext P f f' -> aok A own (f_first f) (f_h f) k a -> aok A own (f_first f') (f_h f') k a.
Proof.
  intros P f f' k a X. destruct (rx_shape _ _ _ X) as (_ & _ & _ & _ & _ & _ & _ & E & _). rewrite E. apply aok_mono; [|apply X|lia].
  destruct (rx_phis _ _ _ X) as (l & E' & _). rewrite E'. intros x I. apply in_or_app. auto.
Qed.

(** The value of a read, in terms of the history. *)
Definition rdok (f : fn) (k : nat) (r : areg) (v : value) : Prop :=
  vin (aok A own (f_first f) (f_h f) k) v /\ v_ty v = nty A r /\ tyok v /\ forall e, env_ok e -> ole (mlog e (f_log f) k r) (pv e v).
Lemma rdok_ext : forall P f f' k r v, rext P f f' -> rdok f k r v -> rdok f' k r v.
Proof.
  intros P f f' k r v X (V1 & V2 & V3 & V4). split; [|split; [assumption|split; [assumption|]]].
  - eapply vin_mono; [|exact V1]. intros a. eapply rext_aok. eassumption.
  - rewrite (rx_log _ _ _ X). assumption.
Qed.
Lemma read_native : forall f k r, BI f -> (k < f_n f)%nat -> mapped r ->
  exists h v, get_reg A false (f_h f) k r (native_facet A r) = Some (h, v) /\ BI (with_h f h) /\ rext (eq r) f (with_h f h) /\ rdok (with_h f h) k r v.
Proof.
  intros f k r [CO B] LK MR. destruct (co_inv _ _ _ _ _ _ CO) as (s & IV & AV & TP). destruct (native_ok r) as [FO NH].
  assert (AVK : avail A (f_h f) k r). { apply (iv_av _ _ _ _ IV). apply AV; auto. }
  destruct (get_reg_ok A false (f_h f) k r (native_facet A r) (iv_wf _ _ _ _ IV) AVK FO NH) as (h & v & G & RD). exists h, v. split; [assumption|].
  assert (FS : match native_facet A r with I8H => 16 | _ => facet_size (native_facet A r) end <= native_size A r) by exact (proj2 (facet_ok_size _ _ FO)).
  destruct (get_reg_hok A own (f_first f) false (f_h f) k r _ h v (co_hok _ _ _ _ _ _ CO) FS G) as (HO & HX & VI).
  assert (LG : legal1 A s (OGet false k r (native_facet A r))).
  { split; [rewrite (iv_n _ _ _ _ IV); assumption|]. split; [apply AV; auto|assumption]. }
  pose proof (exec1_ok A s (f_n f) (f_h f) (OGet false k r (native_facet A r)) IV LG) as PO. cbn [exec1] in PO. rewrite G in PO. destruct PO as (_ & IV' & PA).
  assert (RX : rext (eq r) f (with_h f h)).
  { split; cbn.
    - unfold same_shape; cbn; repeat split. apply (hx_init _ _ _ HX).
    - reflexivity.
    - apply (hx_dirty _ _ _ HX).
    - destruct (hx_phis _ _ _ HX) as (l & E & F). exists l. split; [assumption|]. eapply Forall_impl; [|exact F]. cbn. auto.
    - apply (hx_loads _ _ _ HX).
    - apply (hx_new _ _ _ HX). }
  assert (CO' : core [] (PARf f) (f_n f) h (f_log f) (f_first f)).
  { split; try apply CO.
    - exists s. split; [exact IV'|]. auto.
    - assumption.
    - rewrite (hx_init _ _ _ HX). apply CO.
    - eapply lat_mono; [|apply (co_lat _ _ _ _ _ _ CO)]. intros k' a. apply (hext_aok _ _ _ _ _ _ _ _ HX).
    - intros e E. exact (proj1 (PA e _ E (co_agree _ _ _ _ _ _ CO e E))).
    - intros k' r' L. rewrite (hx_dirty _ _ _ HX). apply CO. assumption.
    - contradiction.
    - intros k' r'. rewrite (hx_dirty _ _ _ HX), (hx_init _ _ _ HX). apply CO.
    - intros k' r'. rewrite (hx_dirty _ _ _ HX), (hx_init _ _ _ HX). apply CO.
    - destruct (hx_phis _ _ _ HX) as (l & E & F). rewrite E. intros x I. apply in_app_or in I. destruct I as [I|I]; [apply CO; assumption|].
      rewrite Forall_forall in F. rewrite (F x I). assumption.
    - intros k' r'. rewrite (hx_dirty _ _ _ HX). apply (co_wr _ _ _ _ _ _ CO).
    - intros k' r'. rewrite (hx_dirty _ _ _ HX). apply (co_wr2 _ _ _ _ _ _ CO).
    - intros k' r'. rewrite (hx_init _ _ _ HX). apply CO. }
  split; [|split; [assumption|]].
  - split; [exact CO'|]. eapply BS_same; [apply RX|assumption].
  - split; [exact VI|].
    destruct RD as (_ & X1 & X2 & _). split; [exact X2|]. split; [assumption|].
    intros e E z M. apply (PA e _ E (co_agree _ _ _ _ _ _ CO e E)). cbn [f_log with_h] in M. rewrite M. unfold facet_of. f_equal.
    pose proof (mlog_inr A e (f_log f) k r z E (co_wf _ _ _ _ _ _ CO) M) as R. unfold native_size in R.
    destruct (native_facet A r); try (apply Z.mod_small; exact R). destruct (NH eq_refl).
Qed.

Lemma ldlog_app : forall l2 l1, ldlog (l2 ++ l1) -> ldlog l1.
Proof. induction l2 as [|[o x] l2 IH]; intros l1 D; [assumption|]. apply IH. exact (proj1 D). Qed.
(** Other files have nothing to do with the slots. *)
Lemma rcell_noload : forall l k r, wflog A l -> ldlog l -> ilog l k <> InitNone -> (k < nlog l)%nat -> forall e s s' x, rcell e k r s x l = rcell e k r s' x l.
Proof.
  assert (G : forall l k r, wflog A l -> ldlog l -> ilog l k <> InitNone \/ (nlog l <= k)%nat -> forall e s s' x, rcell e k r s x l = rcell e k r s' x l).
  { induction l as [|[o y] l IH]; intros k r W D IL e s s' x; [reflexivity|]. destruct W as [W WO]. destruct D as [D DO].
    destruct o as [i|k' r' v|k' r' v|k' r' tr v1 v2 v3|k' r' u t|c k' r' g]; cbn [CfgLog.rcell cstep ilog nlog next wfop] in *; try (rewrite (IH k r W D IL e s s' x); reflexivity).
    - apply IH; try assumption. destruct (Nat.eqb_spec k (nlog l)) as [->|Q]; [right; lia|]. destruct IL as [IL|IL]; [left; assumption|right; lia].
    - destruct (keq_dec k r k' r') as [[<- <-]|Q0].
      + destruct IL as [IL|IL]; [contradiction|lia].
      + rewrite Q0. apply IH; assumption. }
  intros. apply G; auto.
Qed.
End Build.
