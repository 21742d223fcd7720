(** Where the values of the emitted function are defined and used: an invariant of the
    construction (Lower.v). The statements about the finished function are in
    Prop_Ssa.v. *)

From Coq Require Import ZArith Lia ZifyBool List Bool Arith Cantor.
From Verif Require Import CfgFinish Bits IR IrMono IrWf Facet Dsl RegFile RegFileOk RegScript Layout Cfg CfgHeap CfgLog CfgBuild CfgSem Decode LiftFn Lower LowerOk SsaHeap.
Import ListNotations.
Open Scope Z_scope.

(** ** Definitions and uses *)
(** The results of an instruction, with their types. *)
Definition tdefs (i : inst) : list (nat * ty) :=
  match i with
  | IDef n t _ | ILoad n t _ => [(n, t)]
  | IRmw n w _ _ _ => [(n, TInt w)]
  | ICas n n' w _ _ _ => [(n, TInt w); (n', TInt 1)]
  | IPcLoad n => [(n, TInt 64)]
  | IStore _ _ | IMemset _ _ _ => []
  end.
Definition iops (i : inst) : list (exp atom) :=
  match i with
  | IDef _ _ x => [x]
  | ILoad _ _ a => [a]
  | IStore v a => [v; a]
  | IRmw _ _ _ a v => [a; v]
  | ICas _ _ _ a k v => [a; k; v]
  | IMemset a v k => [a; v; k]
  | IPcLoad _ => []
  end.
Definition tops (t : term) : list (exp atom) :=
  match t with TBr _ => [] | TCond x _ _ => [x] | TCall _ x _ => [x] | TRet x => [x] end.
(** The blocks a terminator branches to. *)
Definition tgts (t : term) : list nat := match t with TBr b => [b] | TCond _ t o => [t; o] | TCall _ _ _ | TRet _ => [] end.
Definition dnums (l : list inst) : list nat := map fst (flat_map tdefs l).

(** Register file [d] is [k], or the one whose values [k] continues with, and so on
    (regfile.cc:219-225 InitWithRegFile). *)
Inductive anc (ini : nat -> rinit) : nat -> nat -> Prop :=
| anc_refl : forall k, anc ini k k
| anc_par : forall k p d, ini k = InitParent p -> anc ini p d -> anc ini k d.

(** What code of piece [k] may use after the instructions [l] (newest first) of it. *)
Definition usable (cd : nat -> list inst) (ini : nat -> rinit) (first : nat -> option nat) (k : nat) (l : list inst) (a : atom) : Prop :=
  match a with
  | AVar n t => own n = k /\ In (n, t) (flat_map tdefs l) \/ own n <> k /\ anc ini k (own n) /\ In (n, t) (flat_map tdefs (cd (own n)))
  | APhi b _ => exists j, first b = Some j /\ ini j = InitPhi b /\ anc ini k j
  | ASlot u _ _ => anc ini k u
  end.
Lemma anc_mono : forall ini ini' k d, (forall k, ini k = InitNone \/ ini' k = ini k) -> anc ini k d -> anc ini' k d.
Proof.
  intros ini ini' k d X. induction 1 as [k|k p d E _ IH]; [constructor|]. econstructor; [|exact IH]. destruct (X k) as [Q|Q]; congruence.
Qed.
Lemma usable_mono : forall cd ini first cd' ini' first' k l l2 a,
  (forall k, exists l2, cd' k = l2 ++ cd k) -> (forall k, ini k = InitNone \/ ini' k = ini k) -> (forall b k, first b = Some k -> first' b = Some k) ->
  usable cd ini first k l a -> usable cd' ini' first' k (l2 ++ l) a.
Proof.
  intros cd ini first cd' ini' first' k l l2 a XC XI XF U. destruct a as [n t|b r|u r t]; cbn [usable] in *.
  - destruct U as [[E I0]|(N & AN & I0)].
    + left. split; [exact E|]. rewrite flat_map_app. apply in_or_app. right. exact I0.
    + right. split; [exact N|]. split; [eapply anc_mono; eassumption|]. destruct (XC (own n)) as [l3 ->]. rewrite flat_map_app. apply in_or_app. right. exact I0.
  - destruct U as (j & F & IJ & AN). exists j. split; [auto|]. split; [destruct (XI j); congruence|]. eapply anc_mono; eassumption.
  - eapply anc_mono; eassumption.
Qed.

Section Ssa.
Context `{FpuOps}.
Variable c : cenv.
Notation A := (c_arch c).
Variable Ins : Type.
Variable ds : dst Ins.
Variable a0 : Z.
Variable cfold : nat -> exp atom -> option bool.
Variable gcache : nat -> bool.

(** Of type [t]: with values that fit their types, the expression is a value that
    fits [t], or undefined. *)
Definition sty (x : exp atom) (t : ty) : Prop :=
  twf t = true /\ forall e v, env_ok A e -> vev e x = Ok v -> ty_of v = t /\ wf_rv v.
Definition styped (i : inst) : Prop :=
  match i with
  | IDef _ t x => sty x t
  | ILoad _ t a => sty a TPtr /\ bytes_ty t = true
  | IStore v a => (exists t, sty v t) /\ sty a TPtr
  | IRmw _ w _ a v => sty a TPtr /\ sty v (TInt w) /\ bytes_ty (TInt w) = true
  | ICas _ _ w a k v => sty a TPtr /\ sty k (TInt w) /\ sty v (TInt w) /\ bytes_ty (TInt w) = true
  | IMemset a v k => sty a TPtr /\ sty v (TInt 8) /\ sty k (TInt 64)
  | IPcLoad _ => True
  end.
Definition ttyped (t : term) : Prop :=
  match t with TBr _ => True | TCond x _ _ => sty x (TInt 1) | TCall _ x _ => sty x (TInt 64) | TRet x => sty x (TInt 64) end.

Definition ini (m : em) : nat -> rinit := h_init (f_h (m_f m)).
Definition Us (m : em) (k : nat) (l : list inst) : atom -> Prop := usable (m_code m) (ini m) (f_first (m_f m)) k l.
Definition Pu (m : em) (k : nat) : atom -> Prop := Us m k (m_code m k).

(** Instructions, newest first. *)
Fixpoint ucode (m : em) (k : nat) (l : list inst) : Prop :=
  match l with
  | [] => True
  | i :: l' => (forall x, In x (iops i) -> ain (Us m k l') x) /\ styped i /\ NoDup (map fst (tdefs i)) /\
      (forall n, In n (map fst (tdefs i)) -> own n = k /\ (snd (Cantor.of_nat n) < m_nx m)%nat /\ ~ In n (dnums l')) /\ ucode m k l'
  end.
(** [o]: a block whose last PC is known but that has not been left yet. *)
Record si (o : option nat) (m : em) : Prop := {
  si_h : hin (ini m) (Pu m) (f_h (m_f m));
  si_code : forall k, ucode m k (m_code m k);
  si_term : forall k t, m_term m k = Some t -> (k < f_n (m_f m))%nat /\ (forall x, In x (tops t) -> ain (Pu m k) x) /\ ttyped t /\
            (forall g x k', t = TCall g x k' -> (k < k' < f_n (m_f m))%nat /\ ini m k' = InitNone /\ k' <> O) /\
            forall b', In b' (tgts t) -> exists b, f_file (m_f m) b = Some k /\ In b' (f_succs (m_f m) b);
  si_pcx : forall b x, m_pcx m b = Some x -> (f_succs (m_f m) b <> [] \/ o = Some b) /\ exists k, f_file (m_f m) b = Some k /\ ain (Pu m k) x /\ sty x (TInt 64);
}.
(** Later states. *)
Record mle (m m' : em) : Prop := {
  ml_code : forall k, exists l2, m_code m' k = l2 ++ m_code m k;
  ml_ini : forall k, ini m k = InitNone \/ ini m' k = ini m k;
  ml_first : forall b k, f_first (m_f m) b = Some k -> f_first (m_f m') b = Some k;
  ml_nx : (m_nx m <= m_nx m')%nat;
}.
Lemma mle_refl : forall m, mle m m.
Proof. intros m. split; auto. intro k. exists []. reflexivity. Qed.
Lemma mle_trans : forall a b d, mle a b -> mle b d -> mle a d.
Proof.
  intros a b d X Y. split.
  - intro k. destruct (ml_code _ _ X k) as [l1 E1]. destruct (ml_code _ _ Y k) as [l2 E2]. exists (l2 ++ l1). rewrite E2, E1, app_assoc. reflexivity.
  - intro k. destruct (ml_ini _ _ X k) as [Q|Q]; [auto|]. destruct (ml_ini _ _ Y k) as [Q2|Q2]; [left|right]; congruence.
  - intros b' k F. apply (ml_first _ _ Y), (ml_first _ _ X), F.
  - pose proof (ml_nx _ _ X). pose proof (ml_nx _ _ Y). lia.
Qed.
Lemma Us_mono : forall m m' k l a, mle m m' -> Us m k l a -> Us m' k l a.
Proof. intros m m' k l a X. apply (usable_mono _ _ _ _ _ _ _ _ []); apply X. Qed.
Lemma Pu_mono : forall m m' k a, mle m m' -> Pu m k a -> Pu m' k a.
Proof. intros m m' k a X. unfold Pu, Us. destruct (ml_code _ _ X k) as [l2 E]. rewrite E. apply usable_mono; apply X. Qed.
Lemma ain_Pu : forall m m' k x, mle m m' -> ain (Pu m k) x -> ain (Pu m' k) x.
Proof. intros m m' k x X. apply ain_mono. intro a. apply Pu_mono. assumption. Qed.
Lemma ucode_mono : forall m m' k l, mle m m' -> ucode m k l -> ucode m' k l.
Proof.
  intros m m' k l X. induction l as [|i l IH]; cbn [ucode]; [auto|]. intros (U1 & U2 & U3 & U4 & U5). split; [|split; [exact U2|split; [exact U3|split; [|auto]]]].
  - intros x I0. eapply ain_mono; [|exact (U1 x I0)]. intro a. apply Us_mono. assumption.
  - intros n I0. destruct (U4 n I0) as (V1 & V2 & V3). split; [exact V1|]. split; [pose proof (ml_nx _ _ X); lia|exact V3].
Qed.
Lemma ucode_nx : forall m k l n, ucode m k l -> In n (dnums l) -> own n = k /\ (snd (Cantor.of_nat n) < m_nx m)%nat.
Proof.
  intros m k l n. unfold dnums. induction l as [|i l IH]; cbn [ucode flat_map map]; [intros _ []|]. intros (_ & _ & _ & U4 & U5) I0.
  rewrite map_app in I0. apply in_app_or in I0. destruct I0 as [I0|I0]; [|auto]. destruct (U4 n I0) as (V1 & V2 & _). auto.
Qed.

(** A parent's values. *)
Lemma Pu_par : forall m, built A own (m_f m) -> forall k p a, ini m k = InitParent p -> Pu m p a -> Pu m k a.
Proof.
  intros m B k p a E U. destruct (built_BI _ _ _ B) as [CO _]. pose proof (co_hok _ _ _ _ _ _ _ _ CO) as HO.
  assert (LT : forall k p, ini m k = InitParent p -> (p < k)%nat) by (apply (ho_ipar _ _ _ _ HO)).
  assert (LE : forall k d, anc (ini m) k d -> (d <= k)%nat) by (intros k0 d AN; induction AN as [|k1 p1 d1 E1 _ IH]; [lia|specialize (LT _ _ E1); lia]).
  specialize (LT _ _ E). unfold Pu, Us in *. destruct a as [n t|b r|u r t]; cbn [usable] in *.
  - right. destruct U as [[Q I0]|(N & AN & I0)].
    + rewrite Q. split; [lia|]. split; [econstructor; [exact E|constructor]|exact I0].
    + specialize (LE _ _ AN). split; [lia|]. split; [econstructor; eassumption|exact I0].
  - destruct U as (j & F & IJ & AN). exists j. split; [exact F|]. split; [exact IJ|]. econstructor; eassumption.
  - econstructor; eassumption.
Qed.
Lemma Pu_phi : forall m, built A own (m_f m) -> forall k b r, ini m k = InitPhi b -> Pu m k (APhi b r).
Proof.
  intros m B k b r E. destruct (built_BI _ _ _ B) as [CO _]. pose proof (co_hok _ _ _ _ _ _ _ _ CO) as HO.
  exists k. split; [apply (ho_iphi _ _ _ _ HO); exact E|]. split; [exact E|constructor].
Qed.
Lemma Pu_load : forall m k r t, Pu m k (ASlot k r t).
Proof. intros. constructor. Qed.
Lemma fresh_ini : forall m, built A own (m_f m) -> ini m (f_n (m_f m)) = InitNone.
Proof.
  intros m B. destruct (built_BI _ _ _ B) as [CO _]. destruct (co_inv _ _ _ _ _ _ _ _ CO) as (s & IV & _). apply (iv_fresh _ _ _ _ IV _ (GP 0)). lia.
Qed.

(** Changes of blocks and register files only. *)
Lemma si_with_f : forall o m f', si o m -> mle m (with_f m f') ->
  hin (h_init (f_h f')) (Pu (with_f m f')) (f_h f') -> (f_n (m_f m) <= f_n f')%nat ->
  (forall k, (k < f_n (m_f m))%nat -> h_init (f_h f') k = ini m k) ->
  (forall b k, f_file (m_f m) b = Some k -> (f_succs (m_f m) b <> [] \/ o = Some b) -> f_file f' b = Some k /\ (f_succs (m_f m) b <> [] -> f_succs f' b = f_succs (m_f m) b)) ->
  si o (with_f m f').
Proof.
  intros o m f' X ML HI NN IN FL. split; cbn [m_f with_f m_code m_term m_pcx].
  - exact HI.
  - intro k. eapply ucode_mono; [exact ML|]. apply X.
  - intros k t T. destruct (si_term _ _ X k t T) as (T1 & T2 & T3 & T4 & T5). split; [lia|]. split; [|split; [exact T3|split]].
    + intros x I0. eapply ain_Pu; [exact ML|]. auto.
    + intros g x k' E. destruct (T4 g x k' E) as (K1 & K2 & K3). split; [lia|]. split; [|exact K3]. unfold ini. cbn [m_f with_f]. rewrite IN; [exact K2|lia].
    + intros b' I0. destruct (T5 b' I0) as (b & F1 & S1). assert (NE : f_succs (m_f m) b <> []) by (intro Q; rewrite Q in S1; exact S1). destruct (FL b k F1 (or_introl NE)) as [F2 S2]. exists b. rewrite (S2 NE). auto.
  - intros b x E. destruct (si_pcx _ _ X b x E) as (S1 & k & F & U & T). destruct (FL b k F S1) as [F' S']. split; [destruct S1 as [S1|S1]; [left; rewrite (S' S1); exact S1|right; exact S1]|]. exists k. split; [exact F'|]. split; [|exact T].
    eapply ain_Pu; eassumption.
Qed.
(** An instruction. *)
Lemma of_num : forall m k d, Cantor.of_nat (num m k d) = (k, d + m_nx m)%nat.
Proof. intros m k d. unfold num. apply Cantor.cancel_of_to. Qed.
Lemma own_num : forall m k d, own (num m k d) = k.
Proof. intros. unfold own. rewrite of_num. reflexivity. Qed.
Lemma mle_emit : forall m k d i, mle m (emit m k d i).
Proof.
  intros m k d i. split; cbn [emit m_code m_f m_nx]; auto; [|lia]. intro k'. unfold updn. destruct (Nat.eqb_spec k k') as [<-|]; [exists [i]|exists []]; reflexivity.
Qed.
Lemma si_emit : forall o m k d i, si o m -> (forall x, In x (iops i) -> ain (Pu m k) x) -> styped i -> NoDup (map fst (tdefs i)) ->
  (forall n, In n (map fst (tdefs i)) -> exists j, n = num m k j /\ (j < d)%nat) -> si o (emit m k d i).
Proof.
  intros o m k d i X OP TY ND NM. pose proof (mle_emit m k d i) as ML. split.
  - destruct (si_h _ _ X) as [H1 H2 H3]. split; [exact H1| |exact H3]. intros k' r. eapply rin_mono; [|exact (H2 k' r)]. intro a. apply Pu_mono. exact ML.
  - intro k'. cbn [emit m_code]. unfold updn. destruct (Nat.eqb_spec k k') as [<-|N]; [|eapply ucode_mono; [exact ML|apply X]].
    cbn [ucode]. split; [|split; [exact TY|split; [exact ND|split; [|eapply ucode_mono; [exact ML|apply X]]]]].
    + intros x I0. eapply ain_mono; [|exact (OP x I0)]. intro a. apply Us_mono. exact ML.
    + intros n I0. destruct (NM n I0) as (j & -> & J). split; [apply own_num|]. rewrite of_num. cbn [snd emit m_nx]. split; [lia|].
      intro I1. destruct (ucode_nx _ _ _ _ (si_code _ _ X k) I1) as [_ Q]. rewrite of_num in Q. cbn [snd] in Q. lia.
  - intros k' t T. destruct (si_term _ _ X k' t T) as (T1 & T2 & T3 & T4). split; [exact T1|]. split; [|split; [exact T3|exact T4]].
    intros x I0. eapply ain_Pu; [exact ML|]. auto.
  - intros b x E. destruct (si_pcx _ _ X b x E) as (S1 & k' & F & U & T). split; [exact S1|]. exists k'. split; [exact F|]. split; [|exact T]. eapply ain_Pu; eassumption.
Qed.
Lemma Pu_emit : forall m k d i n t, In (n, t) (tdefs i) -> own n = k -> Pu (emit m k d i) k (AVar n t).
Proof.
  intros m k d i n t I0 O. left. split; [exact O|]. cbn [emit m_code]. rewrite updn_eq. cbn [flat_map]. apply in_or_app. left. exact I0.
Qed.
(** The end of a piece of code. *)
Lemma mle_end : forall m k t, mle m (end_with m k t).
Proof. intros m k t. split; auto. intro k'. exists []. reflexivity. Qed.
Lemma si_end : forall o m k t, si o m -> (k < f_n (m_f m))%nat -> (forall x, In x (tops t) -> ain (Pu m k) x) -> ttyped t ->
  (forall g x k', t = TCall g x k' -> (k < k' < f_n (m_f m))%nat /\ ini m k' = InitNone /\ k' <> O) ->
  (forall b', In b' (tgts t) -> exists b, f_file (m_f m) b = Some k /\ In b' (f_succs (m_f m) b)) -> si o (end_with m k t).
Proof.
  intros o m k t X K OP TY TC TG. split; try apply X; [intro k'; eapply ucode_mono; [apply mle_end|apply X]|]. intros k' t'. cbn [end_with m_term]. unfold updn. destruct (Nat.eqb_spec k k') as [<-|]; [|apply X].
  intro E. injection E as <-. auto.
Qed.

(** ** Blocks and register files *)
Lemma mle_f : forall m f', (forall k, ini m k = InitNone \/ h_init (f_h f') k = ini m k) -> (forall b k, f_first (m_f m) b = Some k -> f_first f' b = Some k) -> mle m (with_f m f').
Proof. intros m f' XI XF. split; auto. intro k. exists []. reflexivity. Qed.
Lemma mle_keep : forall m f', h_init (f_h f') = ini m -> (forall b k, f_first (m_f m) b = Some k -> f_first f' b = Some k) -> mle m (with_f m f').
Proof. intros m f' XI XF. apply mle_f; [|exact XF]. intro k. rewrite XI. auto. Qed.
Lemma hin_keep : forall m f', si None m \/ (exists o, si o m) -> f_h f' = f_h (m_f m) -> mle m (with_f m f') -> hin (h_init (f_h f')) (Pu (with_f m f')) (f_h f').
Proof.
  intros m f' X E ML. assert (HI : hin (ini m) (Pu m) (f_h (m_f m))) by (destruct X as [X|[o X]]; apply X). rewrite E.
  eapply hin_mono; [|exact HI]. intros k a. apply Pu_mono. exact ML.
Qed.
(** A register access. *)
Lemma creg_si : forall o q m w m', posn c q m -> si o m -> cop1 c m (CReg (x_b q) w) = Some m' -> Forall (vin (Pu m (x_k q))) (wvals w) ->
  si o m' /\ mle m m' /\ m_code m' = m_code m /\ m_nx m' = m_nx m /\ forall op v l, f_log (m_f m') = (op, Some v) :: l -> vin (Pu m' (x_k q)) v.
Proof.
  intros o q m w m' P X E FA. destruct (creg_inv _ _ _ _ _ P E) as (n & h & x & EX & MR & WT & LG & SS & MM & PN & EE).
  pose proof (pn_built _ _ _ P) as B. destruct SS as (S1 & S2 & S3 & S4 & S5 & S6 & S7 & S8 & S9 & S10).
  destruct (rop_hin A (ini m) (Pu m) (Pu_par m B) (Pu_phi m B) (Pu_load m) _ _ _ _ _ _ _ (si_h _ _ X) FA EX) as (_ & HI & VX).
  assert (EH : f_h (m_f m') = h).
  { destruct (cop1_inv _ _ _ _ E) as (f' & L & CX & ->). cbn [cexec1] in CX. rewrite (pn_file _ _ _ P) in CX. unfold do_rop in CX. rewrite EX in CX. injection CX as <-. reflexivity. }
  assert (ML : mle m (with_f m (m_f m'))) by (apply mle_keep; [exact S10|rewrite S8; auto]).
  assert (HI' : hin (h_init (f_h (m_f m'))) (Pu (with_f m (m_f m'))) (f_h (m_f m'))).
  { rewrite S10. rewrite EH. eapply hin_mono; [|exact HI]. intros k a. apply Pu_mono. exact ML. }
  rewrite MM. split; [|split; [exact ML|split; [reflexivity|split; [reflexivity|]]]].
  - apply si_with_f; auto; [lia|intros; rewrite S10; reflexivity|]. intros b k F S'. rewrite S4, S6. auto.
  - intros op v l Q. cbn [m_f with_f] in Q. rewrite LG in Q. injection Q as _ -> _. eapply vin_mono; [|exact (VX v eq_refl)]. intro a. apply Pu_mono. exact ML.
Qed.
(** A block. *)
Lemma cblock_si : forall o m mx m', wf c m -> si o m -> cop1 c m (CBlock mx) = Some m' -> si o m' /\ mle m m'.
Proof.
  intros o m mx m' W X E. destruct (cop1_inv _ _ _ _ E) as (f' & L & CX & ->). cbn [cexec1] in CX. injection CX as <-.
  destruct (built_BI _ _ _ (wf_built _ _ W)) as [_ BS].
  assert (ML : mle m (with_f m (new_block (m_f m) mx))).
  { apply mle_keep; [reflexivity|]. cbn [new_block f_first]. intros b k F. destruct (st_first _ BS _ _ F) as (_ & _ & L1 & _). rewrite updn_ne by lia. exact F. }
  split; [|exact ML]. apply si_with_f; auto.
  - apply hin_keep; eauto.
  - cbn [new_block f_file f_succs]. intros b k F S'. destruct (st_file _ BS _ _ F) as (_ & _ & L1 & _). rewrite !updn_ne by lia. auto.
Qed.
(** A register file. *)
Lemma new_file_si : forall o m b i f', ini m (f_n (m_f m)) = InitNone -> si o m -> new_file A (m_f m) b i = Some f' -> f_succs (m_f m) b = [] -> o <> Some b -> si o (with_f m f') /\ mle m (with_f m f').
Proof.
  intros o m b i f' FI X E NS NO. rewrite new_file_eq in E. injection E as <-.
  match goal with |- context [with_f m ?g] => set (f' := g) end.
  assert (ML : mle m (with_f m f')).
  { apply mle_f; cbn [f' f_h f_first with_init h_init].
    - intro k. destruct (Nat.eqb_spec k (f_n (m_f m))) as [->|]; auto.
    - intros b' k F. destruct (f_first (m_f m) b) eqn:FB; [exact F|]. rewrite updn_ne; [exact F|]. intros ->. congruence. }
  split; [|exact ML]. apply si_with_f; auto.
  - destruct (si_h _ _ X) as [H1 H2 H3]. split; [intro k; reflexivity| |exact H3]. intros k r. eapply rin_mono; [|exact (H2 k r)]. intro a. apply Pu_mono. exact ML.
  - cbn [f' f_n]. lia.
  - intros k K. cbn [f' f_h with_init h_init]. destruct (Nat.eqb_spec k (f_n (m_f m))); [lia|reflexivity].
  - intros b' k F S'. cbn [f' f_file f_succs]. rewrite updn_ne; [auto|]. intros ->. destruct S'; contradiction.
Qed.
Lemma loads_si : forall k rs o m f', si o m -> do_rops A (m_f m) (map (fun '(r, fc) => OLoad k r k (facet_type fc)) rs) = Some f' -> si o (with_f m f') /\ mle m (with_f m f').
Proof.
  intros k. induction rs as [|[r fc] rs IH]; intros o m f' X E; cbn [map do_rops] in E.
  - injection E as <-. rewrite <- same_em. split; [exact X|apply mle_refl].
  - unfold do_rop in E. cbn [exec1] in E. match type of E with do_rops _ ?g _ = _ => set (f1 := g) in E end.
    assert (ML : mle m (with_f m f1)) by (apply mle_keep; [reflexivity|auto]).
    assert (X1 : si o (with_f m f1)).
    { apply si_with_f; auto; try (cbn [f1 f_n]; lia). cbn [f1 f_h]. change (h_init (set_load (f_h (m_f m)) k r k (facet_type fc))) with (ini m).
      apply load_hin. eapply hin_mono; [|apply X]. intros k' a. apply Pu_mono. exact ML. }
    destruct (IH o (with_f m f1) f' X1 E) as [X2 M2]. split; [exact X2|]. eapply mle_trans; [exact ML|exact M2].
Qed.
Lemma unpack_si : forall o m b f', ini m (f_n (m_f m)) = InitNone -> si o m -> unpack A (m_f m) b = Some f' -> f_succs (m_f m) b = [] -> o <> Some b ->
  si o (with_f m f') /\ mle m (with_f m f') /\ h_init (f_h f') (f_n (m_f m)) = InitNone.
Proof.
  intros o m b f' W X E NS NO. unfold unpack in E. destruct (new_file A (m_f m) b InitNone) as [f1|] eqn:NF; [|discriminate].
  destruct (new_file_si _ _ _ _ _ W X NF NS NO) as [X1 M1]. destruct (loads_si _ _ _ (with_f m f1) _ X1 E) as [X2 M2]. split; [exact X2|]. split; [eapply mle_trans; eassumption|].
  assert (HI : forall k rs g g', do_rops A g (map (fun '(r, fc) => OLoad k r k (facet_type fc)) rs) = Some g' -> h_init (f_h g') = h_init (f_h g)).
  { clear. intros k. induction rs as [|[r fc] rs IH]; intros g g' E; cbn [map do_rops] in E; [injection E as <-; reflexivity|]. unfold do_rop in E. cbn [exec1] in E.
    apply IH in E. rewrite E. reflexivity. }
  rewrite (HI _ _ _ _ E). rewrite new_file_eq in NF. injection NF as <-. cbn [f_h with_init h_init]. rewrite Nat.eqb_refl. reflexivity.
Qed.
Lemma init_si : forall o m b seal m', wf c m -> si o m -> cop1 c m (CInit b seal) = Some m' -> o <> Some b -> si o m' /\ mle m m' /\ m_code m' = m_code m.
Proof.
  intros o m b seal m' W X E NO. destruct (init_inv _ _ _ _ _ W E) as (E2 & MM & W2 & F2 & S2 & FI2 & LG2 & N2).
  destruct (cop1_inv _ _ _ _ E) as (f' & L & CX & ->). cbn [cexec1 m_f with_f] in *.
  assert (NS : f_succs (m_f m) b = []).
  { destruct (built_BI _ _ _ (wf_built _ _ W)) as [_ B]. destruct L as (L1 & L2 & L3 & L4). destruct (f_succs (m_f m) b) as [|t l] eqn:S'; [reflexivity|]. destruct (st_rng _ B b t) as [_ F']; [rewrite S'; left; reflexivity|].
    destruct (f_file (m_f m) b) as [k0|] eqn:FB; [|congruence]. destruct (st_file _ B _ _ FB) as (_ & _ & _ & N). congruence. }
  assert (NF : exists i, new_file A (m_f m) b i = Some f').
  { unfold init_with_phis in CX. destruct (f_preds (m_f m) b) as [|p0 [|p1 l]]; [eauto| |eauto].
    destruct (seal || _); [|eauto]. destruct (f_file (m_f m) p0); [eauto|discriminate]. }
  destruct NF as [i NF]. destruct (new_file_si _ _ _ _ _ (fresh_ini m (wf_built _ _ W)) X NF NS NO). auto.
Qed.
(** Packs. *)
Lemma pack_si : forall o m b nx f', si o m -> do_pack (m_f m) b nx = Some f' -> f_succs (m_f m) b = [] -> o <> Some b -> si o (with_f m f') /\ mle m (with_f m f').
Proof.
  intros o m b nx f' X E NS NO. unfold do_pack in E. destruct (f_file (m_f m) b) as [k|] eqn:FB; [|discriminate]. injection E as <-.
  match goal with |- context [with_f m ?g] => set (f' := g) end.
  assert (ML : mle m (with_f m f')) by (apply mle_keep; [reflexivity|auto]).
  split; [|exact ML]. apply si_with_f; auto; [apply hin_keep; eauto|]. intros b' k' F S'. cbn [f' f_file f_succs]. rewrite updn_ne; [auto|]. intros ->. destruct S'; contradiction.
Qed.
Lemma ret_si : forall o m b m', si o m -> cop1 c m (CRet b) = Some m' -> o <> Some b -> si o m' /\ mle m m' /\ m_code m' = m_code m.
Proof.
  intros o m b m' X E NO. destruct (cop1_inv _ _ _ _ E) as (f' & L & CX & ->). cbn [cexec1] in CX. unfold do_ret in CX. destruct (pack_si _ _ _ _ _ X CX (proj2 L) NO). auto.
Qed.
(** Edges. *)
Lemma edges_si : forall o m b ts f', si o m -> f_succs (m_f m) b = [] ->
  ts <> [] -> (exists preds,
     f' = Fn (f_n (m_f m)) (f_h (m_f m)) (f_nb (m_f m)) (f_max (m_f m)) (f_file (m_f m)) preds (updn (f_succs (m_f m)) b ts) (f_packs (m_f m)) (f_first (m_f m)) (f_bb (m_f m)) (f_log (m_f m))) ->
  si o (with_f m f') /\ mle m (with_f m f') /\ (f_succs f' b = ts /\ f_file f' b = f_file (m_f m) b).
Proof.
  intros o m b ts f' X NS NT (preds & ->). match goal with |- context [with_f m ?g] => set (f' := g) end.
  assert (ML : mle m (with_f m f')) by (apply mle_keep; [reflexivity|auto]).
  split; [|split; [exact ML|cbn [f' f_succs f_file]; rewrite updn_eq; auto]]. apply si_with_f; auto; [apply hin_keep; eauto|]. intros b' k' F S'. cbn [f' f_file f_succs]. split; [exact F|].
  intro S2. rewrite updn_ne; [reflexivity|]. intros ->. contradiction.
Qed.
Lemma cbr_si : forall o m b t m', si o m -> cop1 c m (CBr b t) = Some m' -> si o m' /\ mle m m' /\ (f_succs (m_f m') b = [t] /\ f_file (m_f m') b = f_file (m_f m) b).
Proof.
  intros o m b t m' X E. destruct (cop1_inv _ _ _ _ E) as (f' & L & CX & ->). cbn [cexec1] in CX. unfold branch_to in CX.
  destruct (f_file (m_f m) b) in CX; [|discriminate]. destruct (f_succs (m_f m) b) eqn:NS; [|discriminate]. injection CX as <-. cbn [m_f with_f]. apply edges_si; [exact X|exact NS|discriminate|]. eexists. reflexivity.
Qed.
Lemma ccond_si : forall o m b t t' m', si o m -> cop1 c m (CCond b t t') = Some m' ->
  si o m' /\ mle m m' /\ (f_succs (m_f m') b = (if Nat.eqb t t' then [t] else [t; t']) /\ f_file (m_f m') b = f_file (m_f m) b).
Proof.
  intros o m b t t' m' X E. destruct (cop1_inv _ _ _ _ E) as (f' & L & CX & ->). cbn [cexec1] in CX. unfold cond_branch_to, branch_to in CX.
  destruct (Nat.eqb t t'); (destruct (f_file (m_f m) b) in CX; [|discriminate]; destruct (f_succs (m_f m) b) eqn:NS; [|discriminate]; injection CX as <-; cbn [m_f with_f]; apply edges_si; [exact X|exact NS|discriminate|]; eexists; reflexivity).
Qed.

(** ** Expressions *)
Lemma sty_leaf : forall a, twf (aty A a) = true -> sty (ELeaf a) (aty A a).
Proof. intros a T. split; [exact T|]. intros e v EO E. injection E as <-. apply EO. Qed.
Lemma sty_const : forall t z, twf t = true -> sty (EConst t z) t.
Proof.
  intros t z T. split; [exact T|]. intros e v EO E. injection E as <-. split; [reflexivity|]. cbn [wf_rv]. apply trunc_range. pose proof (twf_size _ T). lia.
Qed.
Lemma sty_1 : forall o a s t, sty a s -> chk_ty (ty1 o s) = Some t -> sty (E1 o a) t.
Proof.
  intros o a s t [W1 X1] C. apply chk_inv in C. destruct C as [T W]. split; [exact W|]. intros e v EO E. unfold vev in *. cbn [eval] in E.
  destruct (eval _ a) as [x| |] eqn:EA; try discriminate. cbn [bind] in E. destruct (X1 e x EO EA) as [Y1 Y2]. subst s.
  destruct (sem1_ty o x t T) as (y & Z1 & Z2). rewrite E in Z1. injection Z1 as <-. split; [exact Z2|]. eapply sem1_wf; eassumption.
Qed.
Lemma sty_2 : forall o a b s u t, sty a s -> sty b u -> chk_ty (ty2 o s u) = Some t -> sty (E2 o a b) t.
Proof.
  intros o a b s u t [W1 X1] [W2 X2] C. apply chk_inv in C. destruct C as [T W]. split; [exact W|]. intros e v EO E. unfold vev in *. cbn [eval] in E.
  destruct (eval _ a) as [x| |] eqn:EA; try discriminate. destruct (eval _ b) as [y| |] eqn:EB; try discriminate. cbn [bind] in E.
  destruct (X1 e x EO EA) as [Y1 Y2]. destruct (X2 e y EO EB) as [Y3 Y4]. subst s u. split; [eapply sem2_ty; eassumption|]. eapply sem2_wf; eassumption.
Qed.
Lemma sty_3 : forall o a b d s u w t, sty a s -> sty b u -> sty d w -> chk_ty (ty3 o s u w) = Some t -> sty (E3 o a b d) t.
Proof.
  intros o a b d s u w t [W1 X1] [W2 X2] [W3 X3] C. apply chk_inv in C. destruct C as [T W]. split; [exact W|]. intros e v EO E. unfold vev in *. cbn [eval] in E.
  destruct (eval _ a) as [x| |] eqn:EA; try discriminate. destruct (eval _ b) as [y| |] eqn:EB; try discriminate. destruct (eval _ d) as [z| |] eqn:ED; try discriminate. cbn [bind] in E.
  destruct (X1 e x EO EA) as [Y1 Y2]. destruct (X2 e y EO EB) as [Y3 Y4]. destruct (X3 e z EO ED) as [Y5 Y6]. subst s u w. split; [eapply sem3_ty; eassumption|]. eapply sem3_wf; eassumption.
Qed.
Lemma sty_if : forall a b d t, sty b t -> sty d t -> sty (EIf a b d) t.
Proof.
  intros a b d t [W1 X1] [W2 X2]. split; [exact W1|]. intros e v EO E. unfold vev in *. cbn [eval] in E. destruct (eval _ a) as [x| |] eqn:EA; try discriminate. cbn [bind] in E.
  assert (CS : eval (fun l => Ok (e l)) b = Ok v \/ eval (fun l => Ok (e l)) d = Ok v).
  { repeat match type of E with context [match ?x with _ => _ end] => destruct x; try discriminate end; auto. }
  destruct CS; [eapply X1|eapply X2]; eassumption.
Qed.
Lemma facet_twf : forall k f, facet_okb k f = true -> twf (facet_type f) = true.
Proof. intros k f E. destruct f; try reflexivity; discriminate E. Qed.

(** The lifter's position. *)
Definition pok (m : em) (k : nat) (p : spc) : Prop :=
  match p with
  | QVal v | QCheck v _ => ain (Pu m k) v /\ sty v (TInt 64)
  | QConst _ => True
  | QCond v _ _ => ain (Pu m k) v /\ sty v (TInt 1)
  end.
Record qok (m : em) (q : loc) : Prop := {
  qo_var : forall x v, x_var q x = Some v -> vin (Pu m (x_k q)) v /\ sty (v_e v) (v_ty v);
  qo_pc : forall p, x_pc q = Some p -> pok m (x_k q) p;
}.
Lemma pok_mono : forall m m' k p, mle m m' -> pok m k p -> pok m' k p.
Proof. intros m m' k [] ML; cbn [pok]; auto; intros [X Y]; (split; [eapply ain_Pu; eassumption|exact Y]). Qed.
Lemma qok_mono : forall m m' q, mle m m' -> qok m q -> qok m' q.
Proof.
  intros m m' q ML [X Y]. split; [|intros p E; eapply pok_mono; eauto]. intros x v E. destruct (X x v E) as [X1 X2]. split; [|exact X2]. exact (ain_Pu _ _ _ _ ML X1).
Qed.
Lemma pc_exp_ok : forall m k p off, pok m k p -> ain (Pu m k) (pc_exp c p off) /\ sty (pc_exp c p off) (TInt 64).
Proof.
  intros m k p off PK. destruct p as [v|a|v a1 a2|v a]; cbn [pc_exp pok] in *.
  - destruct PK as [X Y]. destruct (off =? 0); [auto|]. split; [split; [exact X|exact I]|]. eapply sty_2; [exact Y|apply sty_const; reflexivity|reflexivity].
  - split; [exact I|]. apply sty_const. reflexivity.
  - destruct PK as [X Y]. split; [split; [exact X|split; exact I]|]. eapply sty_3; [exact Y|apply sty_const; reflexivity|apply sty_const; reflexivity|reflexivity].
  - destruct PK as [X Y]. destruct (off =? 0); [auto|]. split; [split; [exact X|exact I]|]. eapply sty_2; [exact Y|apply sty_const; reflexivity|reflexivity].
Qed.
(** What happens while operands are evaluated. *)
Record rsi (o : option nat) (q : loc) (m m' : em) : Prop := {
  rs_posn : posn c q m';
  rs_si : si o m';
  rs_le : mle m m';
  rs_q : qok m' q;
}.
Lemma rsi_refl : forall o q m, posn c q m -> si o m -> qok m q -> rsi o q m m.
Proof. intros. split; auto using mle_refl. Qed.
Lemma rsi_trans : forall o q a b d, rsi o q a b -> rsi o q b d -> rsi o q a d.
Proof. intros o q a b d X Y. split; try apply Y. eapply mle_trans; [apply X|apply Y]. Qed.
Definition xok (m : em) (k : nat) (x : exp atom) (t : ty) : Prop := ain (Pu m k) x /\ sty x t.
Lemma xok_mono : forall m m' k x t, mle m m' -> xok m k x t -> xok m' k x t.
Proof. intros m m' k x t ML [X Y]. split; [eapply ain_Pu; eassumption|exact Y]. Qed.

Lemma get_si : forall o q m r f m' v, posn c q m -> si o m -> qok m q -> get c gcache q m r f = Some (m', v) ->
  rsi o q m m' /\ xok m' (x_k q) (v_e v) (facet_type f).
Proof.
  intros o q m r f m' v P X Q E. destruct (get_inv _ _ _ _ _ _ _ _ P E) as (RD & MR & TV & VT & g & LG). unfold get in E.
  destruct (cop1 c m (CReg (x_b q) (WGet (gcache (length (f_log (m_f m)))) r f))) as [m1|] eqn:C1; [|discriminate].
  assert (m1 = m'). { destruct (f_log (m_f m1)) as [|[op [w|]] l]; try discriminate. injection E as <- _. reflexivity. } subst m1.
  destruct (creg_si _ _ _ _ _ P X C1 (Forall_nil _)) as (X1 & ML & _ & _ & VX). split; [split; [apply RD|exact X1|exact ML|eapply qok_mono; eassumption]|].
  split; [exact (VX _ _ _ LG)|]. assert (FK : twf (facet_type f) = true).
  { unfold cop1 in C1. destruct (clegalb c (m_f m) _) eqn:LG'; [|discriminate]. cbn [clegalb wtypedb wreg] in LG'. rewrite !andb_true_iff in LG'. destruct LG' as ((_ & W) & _). eapply facet_twf. exact W. }
  split; [exact FK|]. intros e x EO EV. destruct (TV e EO) as (x' & V1 & V2 & V3). rewrite EV in V1. injection V1 as <-. split; [congruence|exact V3].
Qed.
Lemma low_si : forall o q x m m' y t, posn c q m -> si o m -> qok m q -> low c gcache q m x = Some (m', y, t) -> rsi o q m m' /\ xok m' (x_k q) y t.
Proof.
  intros o q. induction x as [l|t0 z|t0|op a IHa|op a IHa b IHb|op a IHa b IHb d IHd|a IHa b IHb d IHd]; intros m m' y t P X Q E; cbn [low] in E.
  - destruct l as [x|r f|off].
    + destruct (x_var q x) as [v|] eqn:XV; [|discriminate]. injection E as <- <- <-. split; [apply rsi_refl; assumption|]. exact (qo_var _ _ Q x v XV).
    + destruct (sysb A r) eqn:SB.
      * destruct f; try discriminate E. injection E as <- <- <-. split; [apply rsi_refl; assumption|]. split; [apply Pu_load|]. apply (sty_leaf (ASlot (x_k q) r (TInt 64))). reflexivity.
      * destruct (get c gcache q m r f) as [[m1 v]|] eqn:G; [|discriminate]. injection E as <- <- <-. eapply get_si; eassumption.
    + destruct (x_pc q) as [p|] eqn:XP; [|discriminate]. injection E as <- <- <-. split; [apply rsi_refl; assumption|]. apply pc_exp_ok. apply (qo_pc _ _ Q). exact XP.
  - destruct (twf t0) eqn:T; [|discriminate]. injection E as <- <- <-. split; [apply rsi_refl; assumption|]. split; [exact I|]. apply sty_const. exact T.
  - destruct (twf t0) eqn:T; [|discriminate]. injection E as <- <- <-. split; [apply rsi_refl; assumption|]. split; [exact I|]. split; [exact T|]. intros e v EO EV. injection EV as <-. split; [reflexivity|exact I].
  - destruct (low c gcache q m a) as [[[m1 a'] s1]|] eqn:L1; [|discriminate]. destruct (IHa _ _ _ _ P X Q L1) as [R1 [A1 A2]].
    destruct (chk_ty (ty1 op s1)) as [t1|] eqn:T; [|discriminate]. injection E as <- <- <-. split; [exact R1|]. split; [exact A1|]. eapply sty_1; eassumption.
  - destruct (low c gcache q m a) as [[[m1 a'] s1]|] eqn:L1; [|discriminate]. destruct (IHa _ _ _ _ P X Q L1) as [R1 A1].
    destruct (low c gcache q m1 b) as [[[m2 b'] s2]|] eqn:L2; [|discriminate]. destruct (IHb _ _ _ _ (rs_posn _ _ _ _ R1) (rs_si _ _ _ _ R1) (rs_q _ _ _ _ R1) L2) as [R2 [B1 B2]].
    destruct (xok_mono _ _ _ _ _ (rs_le _ _ _ _ R2) A1) as [A2 A3].
    destruct (chk_ty (ty2 op s1 s2)) as [t1|] eqn:T; [|discriminate]. injection E as <- <- <-. split; [eapply rsi_trans; eassumption|]. split; [split; assumption|]. eapply sty_2; eassumption.
  - destruct (low c gcache q m a) as [[[m1 a'] s1]|] eqn:L1; [|discriminate]. destruct (IHa _ _ _ _ P X Q L1) as [R1 A1].
    destruct (low c gcache q m1 b) as [[[m2 b'] s2]|] eqn:L2; [|discriminate]. destruct (IHb _ _ _ _ (rs_posn _ _ _ _ R1) (rs_si _ _ _ _ R1) (rs_q _ _ _ _ R1) L2) as [R2 B1].
    destruct (low c gcache q m2 d) as [[[m3 d'] s3]|] eqn:L3; [|discriminate]. destruct (IHd _ _ _ _ (rs_posn _ _ _ _ R2) (rs_si _ _ _ _ R2) (rs_q _ _ _ _ R2) L3) as [R3 [D1 D2]].
    destruct (xok_mono _ _ _ _ _ (rs_le _ _ _ _ R3) (xok_mono _ _ _ _ _ (rs_le _ _ _ _ R2) A1)) as [A2 A3]. destruct (xok_mono _ _ _ _ _ (rs_le _ _ _ _ R3) B1) as [B2 B3].
    destruct (chk_ty (ty3 op s1 s2 s3)) as [t1|] eqn:T; [|discriminate]. injection E as <- <- <-.
    split; [eapply rsi_trans; [exact R1|]; eapply rsi_trans; eassumption|]. split; [repeat split; assumption|]. eapply sty_3; eassumption.
  - destruct (low c gcache q m a) as [[[m1 a'] s1]|] eqn:L1; [|discriminate]. destruct (IHa _ _ _ _ P X Q L1) as [R1 A1].
    destruct (low c gcache q m1 b) as [[[m2 b'] s2]|] eqn:L2; [|discriminate]. destruct (IHb _ _ _ _ (rs_posn _ _ _ _ R1) (rs_si _ _ _ _ R1) (rs_q _ _ _ _ R1) L2) as [R2 B1].
    destruct (low c gcache q m2 d) as [[[m3 d'] s3]|] eqn:L3; [|discriminate]. destruct (IHd _ _ _ _ (rs_posn _ _ _ _ R2) (rs_si _ _ _ _ R2) (rs_q _ _ _ _ R2) L3) as [R3 [D1 D2]].
    destruct (xok_mono _ _ _ _ _ (rs_le _ _ _ _ R3) (xok_mono _ _ _ _ _ (rs_le _ _ _ _ R2) A1)) as [A2 A3]. destruct (xok_mono _ _ _ _ _ (rs_le _ _ _ _ R3) B1) as [B2 B3].
    destruct (ty_eqb s1 (TInt 1) && ty_eqb s2 s3) eqn:T; [|discriminate]. injection E as <- <- <-. apply andb_prop in T. destruct T as [_ T]. apply ty_eqb_eq in T. subst s3.
    split; [eapply rsi_trans; [exact R1|]; eapply rsi_trans; eassumption|]. split; [repeat split; assumption|]. apply sty_if; assumption.
Qed.
Lemma lowt_si : forall o q x m m' y t, posn c q m -> si o m -> qok m q -> lowt c gcache q m x t = Some (m', y) -> rsi o q m m' /\ xok m' (x_k q) y t.
Proof. intros o q x m m' y t P X Q E. destruct (lowt_reads _ _ _ _ _ _ _ _ P E) as [_ L]. eapply low_si; eassumption. Qed.

(** ** Statements *)
Lemma emit_rsi : forall o q m d i, posn c q m -> si o m -> qok m q -> (forall x, In x (iops i) -> ain (Pu m (x_k q)) x) -> styped i -> NoDup (map fst (tdefs i)) ->
  (forall n, In n (map fst (tdefs i)) -> exists j, n = num m (x_k q) j /\ (j < d)%nat) -> rsi o q m (emit m (x_k q) d i).
Proof.
  intros o q m d i P X Q OP TY ND NM. destruct (emit_ext _ _ _ d i P) as [_ P1]. pose proof (mle_emit m (x_k q) d i) as ML.
  split; [exact P1|apply si_emit; assumption|exact ML|eapply qok_mono; eassumption].
Qed.
Lemma vvar_ok : forall m k d i n t, In (n, t) (tdefs i) -> own n = k -> twf t = true -> vin (Pu (emit m k d i) k) (vvar n t) /\ sty (v_e (vvar n t)) (v_ty (vvar n t)).
Proof. intros m k d i n t I0 O T. split; [apply Pu_emit; assumption|]. apply (sty_leaf (AVar n t)). exact T. Qed.
Lemma one_num : forall m k (n : nat), In n [num m k 0] -> exists j, n = num m k j /\ (j < 1)%nat.
Proof. intros m k n [<-|[]]. exists O. auto. Qed.
Lemma nodup1 : forall n : nat, NoDup [n].
Proof. intro n. constructor; [intros []|constructor]. Qed.
Lemma def_si : forall o q m e m' v, posn c q m -> si o m -> qok m q -> def c gcache q m e = Some (m', v) ->
  rsi o q m m' /\ vin (Pu m' (x_k q)) v /\ sty (v_e v) (v_ty v).
Proof.
  intros o q m e m' v P X Q E. unfold def in E. destruct (low c gcache q m e) as [[[m1 y] t]|] eqn:L1; [|discriminate]. injection E as <- <-.
  destruct (low_si _ _ _ _ _ _ _ P X Q L1) as [R1 [Y1 Y2]]. split.
  - eapply rsi_trans; [exact R1|]. apply emit_rsi; try apply R1; cbn [iops tdefs styped map fst]; [intros x [<-|[]]; exact Y1|exact Y2|apply nodup1|apply one_num].
  - apply vvar_ok; [left; reflexivity|apply own_num|apply Y2].
Qed.
Lemma deft_si : forall o q m e t m' v, posn c q m -> si o m -> qok m q -> deft c gcache q m e t = Some (m', v) ->
  rsi o q m m' /\ vin (Pu m' (x_k q)) v /\ sty (v_e v) t.
Proof. intros o q m e t m' v P X Q E. destruct (deft_inv _ _ _ _ _ _ _ _ P E) as [D <-]. eapply def_si; eassumption. Qed.
Lemma wr_si : forall o q m w m' q', posn c q m -> si o m -> qok m q -> wr c q m w = Some (m', q') -> Forall (vin (Pu m (x_k q))) (wvals w) -> q' = q /\ rsi o q m m'.
Proof.
  intros o q m w m' q' P X Q E F. destruct (wr_ext _ _ _ _ _ _ P E) as (EQ & P1 & _). unfold wr in E.
  destruct (cop1 c m (CReg (x_b q) w)) as [m1|] eqn:C1; [|discriminate]. injection E as <- _. destruct (creg_si _ _ _ _ _ P X C1 F) as (X1 & ML & _).
  split; [exact EQ|]. split; [exact P1|exact X1|exact ML|eapply qok_mono; eassumption].
Qed.
(** The position after a statement. *)
Record ssi (o : option nat) (q' : loc) (m m' : em) : Prop := { ss_posn : posn c q' m'; ss_si : si o m'; ss_le : mle m m'; ss_q : qok m' q' }.
Lemma ssi_x : forall o q m m' x v, rsi o q m m' -> vin (Pu m' (x_k q)) v -> sty (v_e v) (v_ty v) -> ssi o (with_x q x v) m m'.
Proof.
  intros o q m m' x v R V T. destruct R as [P X ML [Q1 Q2]]. split; [eapply posn_q; [exact P|reflexivity|reflexivity]|exact X|exact ML|].
  split; [|exact Q2]. cbn [with_x x_var x_k]. intros y w. destruct (Nat.eqb x y); [intro E; injection E as <-; auto|apply Q1].
Qed.
Lemma ssi_q : forall o q m m' p, rsi o q m m' -> pok m' (x_k q) p -> ssi o (with_q q p) m m'.
Proof.
  intros o q m m' p R V. destruct R as [P X ML [Q1 Q2]]. split; [eapply posn_q; [exact P|reflexivity|reflexivity]|exact X|exact ML|].
  split; [exact Q1|]. cbn [with_q x_pc x_k]. intros p' E. injection E as <-. exact V.
Qed.
Lemma ssi_r : forall o q m m', rsi o q m m' -> ssi o q m m'.
Proof. intros o q m m' []. split; assumption. Qed.
Lemma bytes_twf : forall t, bytes_ty t = true -> twf t = true.
Proof. intros t E. apply andb_prop in E. apply E. Qed.
Lemma byte_w_inv : forall t w, byte_w t = Some w -> t = TInt w /\ bytes_ty (TInt w) = true.
Proof. intros t w E. destruct t; try discriminate. cbn [byte_w] in E. destruct (bytes_ty (TInt w0)) eqn:B; [|discriminate]. injection E as ->. auto. Qed.
Ltac low1 L R Y := match type of L with
  | low _ _ _ _ _ = Some _ => edestruct low_si as [R Y]; [| | |exact L|]
  | lowt _ _ _ _ _ _ = Some _ => edestruct lowt_si as [R Y]; [| | |exact L|] end.
Lemma num_ne : forall m k i j, i <> j -> num m k i <> num m k j.
Proof. intros m k i j N E. apply (f_equal Cantor.of_nat) in E. rewrite !of_num in E. injection E as E. lia. Qed.

Lemma lstm_si : forall o q m i m' q', posn c q m -> si o m -> qok m q -> lstm c gcache q m i = Some (m', q') -> ssi o q' m m'.
Proof.
  intros o q m i m' q' P X Q E.
  destruct i as [x e|x t a|v a|x op a v|x y a k v|a v n|r e|r e|r tr t v1 v2 v3|a|e|e a1 a2|a|f|]; cbn [lstm] in E; try discriminate.
  - destruct (def c gcache q m e) as [[m1 v]|] eqn:D; [|discriminate]. injection E as <- <-. destruct (def_si _ _ _ _ _ _ P X Q D) as (R & V1 & V2). apply ssi_x; assumption.
  - destruct (lowt c gcache q m a TPtr) as [[m1 a1]|] eqn:L1; [|discriminate]. destruct (bytes_ty t) eqn:BT; [|discriminate]. injection E as <- <-.
    destruct (lowt_si _ _ _ _ _ _ _ P X Q L1) as [R1 [Y1 Y2]]. destruct (vvar_ok m1 (x_k q) 1 (ILoad (num m1 (x_k q) 0) t a1) (num m1 (x_k q) 0) t) as [V1 V2]; [left; reflexivity|apply own_num|apply bytes_twf; exact BT|].
    apply ssi_x; [|exact V1|exact V2]. eapply rsi_trans; [exact R1|]. apply emit_rsi; try apply R1; cbn [iops tdefs styped map fst]; [intros z [<-|[]]; exact Y1|auto|apply nodup1|apply one_num].
  - destruct (low c gcache q m v) as [[[m1 v1] t1]|] eqn:L1; [|discriminate]. destruct (low_si _ _ _ _ _ _ _ P X Q L1) as [R1 Y].
    destruct (lowt c gcache q m1 a TPtr) as [[m2 a1]|] eqn:L2; [|discriminate]. destruct (lowt_si _ _ _ _ _ _ _ (rs_posn _ _ _ _ R1) (rs_si _ _ _ _ R1) (rs_q _ _ _ _ R1) L2) as [R2 [Z1 Z2]].
    destruct (xok_mono _ _ _ _ _ (rs_le _ _ _ _ R2) Y) as [Y1 Y2]. injection E as <- <-. apply ssi_r. eapply rsi_trans; [exact R1|]. eapply rsi_trans; [exact R2|].
    apply emit_rsi; try apply R2; cbn [iops tdefs styped map fst]; [intros z [<-|[<-|[]]]; assumption|split; [eauto|assumption]|constructor|intros ? []].
  - destruct (lowt c gcache q m a TPtr) as [[m1 a1]|] eqn:L1; [|discriminate]. destruct (lowt_si _ _ _ _ _ _ _ P X Q L1) as [R1 Y].
    destruct (low c gcache q m1 v) as [[[m2 v1] t1]|] eqn:L2; [|discriminate]. destruct (low_si _ _ _ _ _ _ _ (rs_posn _ _ _ _ R1) (rs_si _ _ _ _ R1) (rs_q _ _ _ _ R1) L2) as [R2 [Z1 Z2]].
    destruct (xok_mono _ _ _ _ _ (rs_le _ _ _ _ R2) Y) as [Y1 Y2].
    destruct (byte_w t1) as [w|] eqn:BW; [|discriminate]. injection E as <- <-. destruct (byte_w_inv _ _ BW) as [-> BT].
    destruct (vvar_ok m2 (x_k q) 1 (IRmw (num m2 (x_k q) 0) w op a1 v1) (num m2 (x_k q) 0) (TInt w)) as [V1 V2]; [left; reflexivity|apply own_num|apply bytes_twf; exact BT|].
    apply ssi_x; [|exact V1|exact V2]. eapply rsi_trans; [exact R1|]. eapply rsi_trans; [exact R2|].
    apply emit_rsi; try apply R2; cbn [iops tdefs styped map fst]; [intros z [<-|[<-|[]]]; assumption|auto|apply nodup1|apply one_num].
  - destruct (lowt c gcache q m a TPtr) as [[m1 a1]|] eqn:L1; [|discriminate]. destruct (lowt_si _ _ _ _ _ _ _ P X Q L1) as [R1 Y].
    destruct (low c gcache q m1 k) as [[[m2 k1] t1]|] eqn:L2; [|discriminate]. destruct (low_si _ _ _ _ _ _ _ (rs_posn _ _ _ _ R1) (rs_si _ _ _ _ R1) (rs_q _ _ _ _ R1) L2) as [R2 Z].
    destruct (byte_w t1) as [w|] eqn:BW; [|discriminate]. destruct (byte_w_inv _ _ BW) as [-> BT].
    destruct (lowt c gcache q m2 v (TInt w)) as [[m3 v1]|] eqn:L3; [|discriminate]. destruct (lowt_si _ _ _ _ _ _ _ (rs_posn _ _ _ _ R2) (rs_si _ _ _ _ R2) (rs_q _ _ _ _ R2) L3) as [R3 [U1 U2]].
    destruct (xok_mono _ _ _ _ _ (rs_le _ _ _ _ R3) (xok_mono _ _ _ _ _ (rs_le _ _ _ _ R2) Y)) as [Y1 Y2]. destruct (xok_mono _ _ _ _ _ (rs_le _ _ _ _ R3) Z) as [Z1 Z2].
    injection E as <- <-. set (i := ICas (num m3 (x_k q) 0) (num m3 (x_k q) 1) w a1 k1 v1).
    destruct (vvar_ok m3 (x_k q) 2 i (num m3 (x_k q) 0) (TInt w)) as [V1 V2]; [left; reflexivity|apply own_num|apply bytes_twf; exact BT|].
    destruct (vvar_ok m3 (x_k q) 2 i (num m3 (x_k q) 1) (TInt 1)) as [V3 V4]; [right; left; reflexivity|apply own_num|reflexivity|].
    assert (R4 : rsi o q m (emit m3 (x_k q) 2 i)).
    { eapply rsi_trans; [exact R1|]. eapply rsi_trans; [exact R2|]. eapply rsi_trans; [exact R3|].
      apply emit_rsi; try apply R3; cbn [i iops tdefs styped map fst]; [intros z [<-|[<-|[<-|[]]]]; assumption|auto| |].
      - constructor; [|apply nodup1]. intros [E|[]]. revert E. apply num_ne. discriminate.
      - intros n [<-|[<-|[]]]; [exists O|exists 1%nat]; auto. }
    destruct (ssi_x _ _ _ _ x _ R4 V1 V2) as [P5 X5 M5 Q5].
    exact (ssi_x o (with_x q x (vvar (num m3 (x_k q) 0) (TInt w))) m _ y _ (Build_rsi _ _ _ _ P5 X5 M5 Q5) V3 V4).
  - destruct (lowt c gcache q m a TPtr) as [[m1 a1]|] eqn:L1; [|discriminate]. destruct (lowt_si _ _ _ _ _ _ _ P X Q L1) as [R1 Y].
    destruct (lowt c gcache q m1 v (TInt 8)) as [[m2 v1]|] eqn:L2; [|discriminate]. destruct (lowt_si _ _ _ _ _ _ _ (rs_posn _ _ _ _ R1) (rs_si _ _ _ _ R1) (rs_q _ _ _ _ R1) L2) as [R2 Z].
    destruct (lowt c gcache q m2 n (TInt 64)) as [[m3 n1]|] eqn:L3; [|discriminate]. destruct (lowt_si _ _ _ _ _ _ _ (rs_posn _ _ _ _ R2) (rs_si _ _ _ _ R2) (rs_q _ _ _ _ R2) L3) as [R3 [U1 U2]].
    destruct (xok_mono _ _ _ _ _ (rs_le _ _ _ _ R3) (xok_mono _ _ _ _ _ (rs_le _ _ _ _ R2) Y)) as [Y1 Y2]. destruct (xok_mono _ _ _ _ _ (rs_le _ _ _ _ R3) Z) as [Z1 Z2].
    injection E as <- <-. apply ssi_r. eapply rsi_trans; [exact R1|]. eapply rsi_trans; [exact R2|]. eapply rsi_trans; [exact R3|].
    apply emit_rsi; try apply R3; cbn [iops tdefs styped map fst]; [intros z [<-|[<-|[<-|[]]]]; assumption|auto|constructor|intros ? []].
  - destruct (def c gcache q m e) as [[m1 v]|] eqn:D; [|discriminate]. destruct (def_si _ _ _ _ _ _ P X Q D) as (R & V1 & V2).
    destruct (wr_si _ _ _ _ _ _ (rs_posn _ _ _ _ R) (rs_si _ _ _ _ R) (rs_q _ _ _ _ R) E) as [-> R2]; [repeat constructor; exact V1|]. apply ssi_r. eapply rsi_trans; eassumption.
  - destruct (def c gcache q m e) as [[m1 v]|] eqn:D; [|discriminate]. destruct (def_si _ _ _ _ _ _ P X Q D) as (R & V1 & V2).
    destruct (wr_si _ _ _ _ _ _ (rs_posn _ _ _ _ R) (rs_si _ _ _ _ R) (rs_q _ _ _ _ R) E) as [-> R2]; [repeat constructor; exact V1|]. apply ssi_r. eapply rsi_trans; eassumption.
  - destruct (deft c gcache q m v1 t) as [[m1 w1]|] eqn:D1; [|discriminate]. destruct (deft_si _ _ _ _ _ _ _ P X Q D1) as (R1 & V1 & _).
    assert (FIN : forall m2 w, rsi o q m m2 -> Forall (vin (Pu m2 (x_k q))) (wvals w) -> wr c q m2 w = Some (m', q') -> ssi o q' m m').
    { intros m2 w R F W. destruct (wr_si _ _ _ _ _ _ (rs_posn _ _ _ _ R) (rs_si _ _ _ _ R) (rs_q _ _ _ _ R) W F) as [-> R2]. apply ssi_r. eapply rsi_trans; eassumption. }
    assert (VM : forall m2 m3 v, mle m2 m3 -> vin (Pu m2 (x_k q)) v -> vin (Pu m3 (x_k q)) v) by (intros m2 m3 v ML; apply ain_Pu; exact ML).
    destruct tr.
    1,2,5: (eapply FIN; [exact R1| |exact E]; repeat constructor; exact V1).
    + destruct (deft c gcache q m1 v2 t) as [[m2 w2]|] eqn:D2; [|discriminate]. destruct (deft_si _ _ _ _ _ _ _ (rs_posn _ _ _ _ R1) (rs_si _ _ _ _ R1) (rs_q _ _ _ _ R1) D2) as (R2 & V2 & _).
      eapply FIN; [eapply rsi_trans; eassumption| |exact E]. pose proof (VM _ _ _ (rs_le _ _ _ _ R2) V1). repeat constructor; assumption.
    + destruct (deft c gcache q m1 v2 t) as [[m2 w2]|] eqn:D2; [|discriminate]. destruct (deft_si _ _ _ _ _ _ _ (rs_posn _ _ _ _ R1) (rs_si _ _ _ _ R1) (rs_q _ _ _ _ R1) D2) as (R2 & V2 & _).
      destruct (deft c gcache q m2 v3 t) as [[m3 w3]|] eqn:D3; [|discriminate]. destruct (deft_si _ _ _ _ _ _ _ (rs_posn _ _ _ _ R2) (rs_si _ _ _ _ R2) (rs_q _ _ _ _ R2) D3) as (R3 & V3 & _).
      eapply FIN; [eapply rsi_trans; [exact R1|]; eapply rsi_trans; eassumption| |exact E].
      pose proof (VM _ _ _ (rs_le _ _ _ _ R3) (VM _ _ _ (rs_le _ _ _ _ R2) V1)). pose proof (VM _ _ _ (rs_le _ _ _ _ R3) V2). repeat constructor; assumption.
    + destruct (deft c gcache q m1 v2 t) as [[m2 w2]|] eqn:D2; [|discriminate]. destruct (deft_si _ _ _ _ _ _ _ (rs_posn _ _ _ _ R1) (rs_si _ _ _ _ R1) (rs_q _ _ _ _ R1) D2) as (R2 & V2 & _).
      destruct (deft c gcache q m2 v3 t) as [[m3 w3]|] eqn:D3; [|discriminate]. destruct (deft_si _ _ _ _ _ _ _ (rs_posn _ _ _ _ R2) (rs_si _ _ _ _ R2) (rs_q _ _ _ _ R2) D3) as (R3 & V3 & _).
      eapply FIN; [eapply rsi_trans; [exact R1|]; eapply rsi_trans; eassumption| |exact E].
      pose proof (VM _ _ _ (rs_le _ _ _ _ R3) (VM _ _ _ (rs_le _ _ _ _ R2) V1)). pose proof (VM _ _ _ (rs_le _ _ _ _ R3) V2). repeat constructor; assumption.
  - injection E as <- <-. apply ssi_q; [apply rsi_refl; assumption|exact I].
  - destruct (deft c gcache q m e (TInt 64)) as [[m1 v]|] eqn:D; [|discriminate]. injection E as <- <-. destruct (deft_si _ _ _ _ _ _ _ P X Q D) as (R & V1 & V2). apply ssi_q; [exact R|]. split; assumption.
  - destruct (deft c gcache q m e (TInt 1)) as [[m1 v]|] eqn:D; [|discriminate]. injection E as <- <-. destruct (deft_si _ _ _ _ _ _ _ P X Q D) as (R & V1 & V2). apply ssi_q; [exact R|]. split; assumption.
  - destruct (deft c gcache q m (ELeaf (DPc 0)) (TInt 64)) as [[m1 v]|] eqn:D; [|discriminate]. injection E as <- <-. destruct (deft_si _ _ _ _ _ _ _ P X Q D) as (R & V1 & V2). apply ssi_q; [exact R|]. split; assumption.
Qed.

Lemma lcall_si : forall q m g m' q', posn c q m -> si None m -> qok m q -> lcall c q m g = Some (m', q') -> ssi None q' m m'.
Proof.
  intros q m g m' q' P X Q E. destruct (lcall_inv _ _ _ _ _ _ P E) as (p & n & XP & -> & -> & P1 & _). unfold lcall in E. rewrite XP in E.
  destruct (cop1 c m (CCall (x_b q))) as [m1|] eqn:C1; [|discriminate]. injection E as <-. destruct (posn_bb _ _ _ P) as (_ & KN & _).
  destruct (cop1_inv _ _ _ _ C1) as (f' & L & CX & ->). cbn [cexec1] in CX. unfold do_call in CX.
  destruct (do_pack (m_f m) (x_b q) (Some (f_n (m_f m)))) as [f1|] eqn:DP; [|discriminate].
  assert (N1 : f_n f1 = f_n (m_f m) /\ f_h f1 = f_h (m_f m) /\ f_succs f1 (x_b q) = []).
  { unfold do_pack in DP. rewrite (pn_file _ _ _ P) in DP. injection DP as <-. cbn [f_n f_h f_succs]. pose proof (pn_succs _ _ _ P). auto. }
  destruct N1 as (N1 & H1 & S1).
  destruct (pack_si _ _ _ _ _ X DP (pn_succs _ _ _ P)) as [X1 M1]; [discriminate|].
  destruct (unpack_si None (with_f m f1) (x_b q) f') as (X2 & M2 & I2); try assumption; try discriminate.
  { unfold ini. cbn [m_f with_f]. rewrite N1, H1. apply (fresh_ini m (pn_built _ _ _ P)). }
  cbn [m_f with_f] in I2. rewrite N1 in I2. change (with_f (with_f m f1) f') with (with_f m f') in *.
  pose proof (mle_trans _ _ _ M1 M2) as M3. destruct (unpack_inv _ _ _ _ CX) as (_ & N2 & _). rewrite N1 in N2.
  destruct (pc_exp_ok m (x_k q) p 0 (qo_pc _ _ Q p XP)) as [A1 A2].
  set (k' := f_n (m_f m)) in *. set (t := TCall g (pc_exp c p 0) k').
  assert (X4 : si None (end_with (with_f m f') (x_k q) t)).
  { apply si_end; [exact X2|cbn [m_f with_f]; lia|intros x [<-|[]]; eapply ain_Pu; eassumption|exact A2|..].
    - intros g' x k0 Q0. injection Q0 as _ _ <-. cbn [m_f with_f]. split; [lia|]. split; [exact I2|lia].
    - intros b' []. }
  pose proof (mle_end (with_f m f') (x_k q) t) as M4. set (m4 := end_with (with_f m f') (x_k q) t) in *.
  assert (NU : num m k' 0 = num m4 k' 0) by reflexivity.
  split; [exact P1| | |].
  - apply si_emit; [exact X4|intros x []|exact I|apply nodup1|]. cbn [tdefs map fst]. apply one_num.
  - eapply mle_trans; [exact M3|]. eapply mle_trans; [exact M4|]. apply mle_emit.
  - split; cbn [x_var x_pc x_k]; [discriminate|]. intros p' Q'. injection Q' as <-. cbn [pok]. split; [|apply (sty_leaf (AVar _ (TInt 64))); reflexivity].
    apply Pu_emit; [left; reflexivity|apply own_num].
Qed.
Lemma lret_si : forall q m m', posn c q m -> si None m -> qok m q -> lret c q m = Some m' -> si None m' /\ mle m m'.
Proof.
  intros q m m' P X Q E. unfold lret in E. destruct (x_pc q) as [p|] eqn:XP; [|discriminate]. destruct (cop1 c m (CRet (x_b q))) as [m1|] eqn:C1; [|discriminate]. injection E as <-.
  destruct (ret_si _ _ _ _ X C1) as (X1 & M1 & _); [discriminate|]. destruct (pc_exp_ok m (x_k q) p 0 (qo_pc _ _ Q p XP)) as [A1 A2]. destruct (posn_bb _ _ _ P) as (_ & KN & _).
  assert (N1 : f_n (m_f m1) = f_n (m_f m)).
  { destruct (cop1_inv _ _ _ _ C1) as (f' & L & CX & ->). cbn [cexec1] in CX. unfold do_ret, do_pack in CX. rewrite (pn_file _ _ _ P) in CX. injection CX as <-. reflexivity. }
  split; [|eapply mle_trans; [exact M1|apply mle_end]]. apply si_end; [exact X1|lia|intros x [<-|[]]; eapply ain_Pu; eassumption|exact A2|discriminate|intros b' []].
Qed.
Lemma lstms_si : forall l q m m' x, posn c q m -> si None m -> qok m q -> lstms c gcache q m l = Some (m', x) ->
  si None m' /\ mle m m' /\ forall q', x = Some q' -> posn c q' m' /\ qok m' q'.
Proof.
  induction l as [|i l IH]; intros q m m' x P X Q E.
  - injection E as <- <-. split; [exact X|]. split; [apply mle_refl|]. intros q' E. injection E as <-. auto.
  - rewrite lstms_cons in E.
    assert (GEN : forall m1 q1, ssi None q1 m m1 -> lstms c gcache q1 m1 l = Some (m', x) -> si None m' /\ mle m m' /\ forall q', x = Some q' -> posn c q' m' /\ qok m' q').
    { intros m1 q1 [P1 X1 M1 Q1] E1. destruct (IH _ _ _ _ P1 X1 Q1 E1) as (X2 & M2 & R). split; [exact X2|]. split; [eapply mle_trans; eassumption|exact R]. }
    assert (GST : (opt (m, q) <- lstm c gcache q m i; lstms c gcache q m l) = Some (m', x) -> si None m' /\ mle m m' /\ forall q', x = Some q' -> posn c q' m' /\ qok m' q').
    { intro E1. destruct (lstm c gcache q m i) as [[m1 q1]|] eqn:L1; [|discriminate]. eapply GEN; [|exact E1]. eapply lstm_si; eassumption. }
    destruct i; try (apply GST; exact E).
    + destruct (lcall c q m f) as [[m1 q1]|] eqn:L1; [|discriminate]. eapply GEN; [|exact E]. eapply lcall_si; eassumption.
    + destruct (lret c q m) as [m1|] eqn:L1; [|discriminate]. destruct (is_nil l); [|discriminate]. injection E as <- <-.
      destruct (lret_si _ _ _ P X Q L1). split; [assumption|]. split; [assumption|]. discriminate.
Qed.

(** ** Blocks *)
Lemma si_same : forall o m m', m_f m' = m_f m -> m_nx m' = m_nx m -> m_code m' = m_code m -> m_term m' = m_term m -> m_pcx m' = m_pcx m -> si o m -> si o m' /\ mle m m'.
Proof.
  intros o m m' F N CD T PX X.
  assert (ML : mle m m'). { split; unfold ini; rewrite ?F, ?N, ?CD; auto. intro k. exists []. reflexivity. }
  assert (PE : forall k, Pu m' k = Pu m k) by (intro k; unfold Pu, Us, ini; rewrite F, CD; reflexivity).
  assert (IE : ini m' = ini m) by (unfold ini; rewrite F; reflexivity). split; [|exact ML]. split.
  - rewrite IE, F. destruct (si_h _ _ X) as [H1 H2 H3]. split; [exact H1| |exact H3]. intros k r. rewrite PE. apply H2.
  - intro k. rewrite CD. eapply ucode_mono; [exact ML|apply X].
  - intros k t. rewrite T, F, PE, IE. apply X.
  - intros b x. rewrite PX, F. intro E. destruct (si_pcx _ _ X b x E) as (S1 & k & F1 & U). split; [exact S1|]. exists k. rewrite PE. auto.
Qed.
Lemma si_close : forall m b, si (Some b) m -> f_succs (m_f m) b <> [] -> si None m.
Proof.
  intros m b X S'. split; try apply X. intros b' x E. destruct (si_pcx _ _ X b' x E) as (S1 & R). split; [|exact R]. left. destruct S1 as [S1|S1]; [exact S1|]. injection S1 as <-. exact S'.
Qed.
Lemma rblk_si : forall o m a m' t, wf c m -> si o m -> rblk c Ins ds a0 m a = Some (m', t) -> si o m' /\ mle m m'.
Proof.
  intros o m a m' t W X E. unfold rblk in E. destruct (resolve Ins ds a); [|injection E as <- <-; split; [exact X|apply mle_refl]].
  destruct (blk_at (m_blk m) a) as [b|]; [injection E as <- <-; split; [exact X|apply mle_refl]|].
  destruct (cop1 c m _) as [m1|] eqn:C1; [|discriminate]. injection E as <- <-. destruct (cblock_si _ _ _ _ W X C1) as [X1 M1].
  match goal with |- si o ?m2 /\ _ => destruct (si_same o m1 m2 eq_refl eq_refl eq_refl eq_refl eq_refl X1) as [X2 M2] end. split; [exact X2|]. eapply mle_trans; eassumption.
Qed.
Lemma br_n_same : forall m op m', cop1 c m op = Some m' -> match op with CBr _ _ | CCond _ _ _ => f_n (m_f m') = f_n (m_f m) | _ => True end.
Proof.
  intros m op m' E. destruct (cop1_inv _ _ _ _ E) as (f' & L & CX & ->). destruct op; try exact I; cbn [cexec1 m_f with_f] in *; unfold cond_branch_to, branch_to in CX;
    repeat match type of CX with context [match ?x with _ => _ end] => destruct x; try discriminate end; injection CX as <-; reflexivity.
Qed.
Lemma lbr_si : forall o q m t m', posn c q m -> si o m -> lbr c q m t = Some m' -> si o m' /\ mle m m' /\ f_succs (m_f m') (x_b q) <> [].
Proof.
  intros o q m t m' P X E. unfold lbr in E. destruct (cop1 c m (CBr (x_b q) t)) as [m1|] eqn:C1; [|discriminate]. injection E as <-.
  destruct (cbr_si _ _ _ _ _ X C1) as (X1 & M1 & S1). destruct (posn_bb _ _ _ P) as (_ & KN & _). pose proof (br_n_same _ _ _ C1) as N1. cbn beta iota in N1.
  destruct S1 as [S1 F1]. split; [|split; [eapply mle_trans; [exact M1|apply mle_end]|cbn [m_f end_with]; rewrite S1; discriminate]]. apply si_end; [exact X1|lia|intros x []|exact I|discriminate|].
  intros b' I0. exists (x_b q). rewrite F1, S1. split; [apply P|exact I0].
Qed.
Lemma lcond_si : forall o q m x a1 a2 m', posn c q m -> si o m -> ain (Pu m (x_k q)) x -> sty x (TInt 1) -> lcond c Ins ds a0 cfold q m x a1 a2 = Some m' ->
  si o m' /\ mle m m' /\ f_succs (m_f m') (x_b q) <> [].
Proof.
  intros o q m x a1 a2 m' P X AX TX E. unfold lcond in E. destruct (cfold (x_k q) x) as [z|].
  - destruct (add_fold_inv c q m (x_k q) x z P) as [P1 _]. destruct (si_same o m (add_fold m (x_k q) x z) eq_refl eq_refl eq_refl eq_refl eq_refl X) as [X1 M1].
    destruct (rblk c Ins ds a0 (add_fold m (x_k q) x z) (if z then a1 else a2)) as [[m1 t]|] eqn:RB; [|discriminate].
    destruct (rblk_inv _ _ _ _ _ _ _ _ (pn_wf _ _ _ P1) RB) as (W2 & _ & PQ & _). destruct (rblk_si _ _ _ _ _ (pn_wf _ _ _ P1) X1 RB) as [X2 M2].
    destruct (lbr_si _ _ _ _ _ (PQ _ P1) X2 E) as (X3 & M3 & S3). split; [exact X3|]. split; [|exact S3]. eapply mle_trans; [exact M1|]. eapply mle_trans; eassumption.
  - destruct (rblk c Ins ds a0 m a1) as [[m1 t]|] eqn:RB1; [|discriminate]. destruct (rblk_inv _ _ _ _ _ _ _ _ (pn_wf _ _ _ P) RB1) as (W1 & _ & PQ1 & _). destruct (rblk_si _ _ _ _ _ (pn_wf _ _ _ P) X RB1) as [X1 M1].
    destruct (rblk c Ins ds a0 m1 a2) as [[m2 o']|] eqn:RB2; [|discriminate]. destruct (rblk_inv _ _ _ _ _ _ _ _ W1 RB2) as (W2 & _ & PQ2 & _). destruct (rblk_si _ _ _ _ _ W1 X1 RB2) as [X2 M2].
    destruct (cop1 c m2 (CCond (x_b q) t o')) as [m3|] eqn:CC; [|discriminate]. injection E as <-.
    destruct (ccond_si _ _ _ _ _ _ X2 CC) as (X3 & M3 & S3). pose proof (br_n_same _ _ _ CC) as N3. cbn beta iota in N3. destruct (posn_bb _ _ _ (PQ2 _ (PQ1 _ P))) as (_ & KN & _).
    pose proof (mle_trans _ _ _ M1 (mle_trans _ _ _ M2 M3)) as M4. destruct S3 as [S3 F3].
    split; [|split; [eapply mle_trans; [exact M4|apply mle_end]|cbn [m_f end_with]; rewrite S3; destruct (Nat.eqb t o'); discriminate]].
    apply si_end; [exact X3|lia|..].
    + destruct (Nat.eqb t o'); cbn [tops]; intros y I0; [destruct I0|]. destruct I0 as [<-|[]]. eapply ain_Pu; eassumption.
    + destruct (Nat.eqb t o'); [exact I|exact TX].
    + destruct (Nat.eqb t o'); discriminate.
    + intros b' I0. exists (x_b q). rewrite F3, S3. split; [apply (PQ2 _ (PQ1 _ P))|]. destruct (Nat.eqb t o'); exact I0.
Qed.
Lemma set_pcx_si : forall q m x, posn c q m -> si None m -> ain (Pu m (x_k q)) x -> sty x (TInt 64) -> si (Some (x_b q)) (set_pcx m (x_b q) x) /\ mle m (set_pcx m (x_b q) x).
Proof.
  intros q m x P X AX TX. assert (ML : mle m (set_pcx m (x_b q) x)) by (split; auto; intro k; exists []; reflexivity). split; [|exact ML]. split; try apply X.
  - intro k. eapply ucode_mono; [exact ML|apply X].
  - intros b y. cbn [set_pcx m_pcx m_f]. unfold updn. destruct (Nat.eqb_spec (x_b q) b) as [<-|N].
    + intro E. injection E as <-. split; [right; reflexivity|]. exists (x_k q). split; [apply P|]. auto.
    + intro E. destruct (si_pcx _ _ X b y E) as (S1 & R). split; [|exact R]. destruct S1 as [S1|S1]; [left; exact S1|discriminate].
Qed.
Lemma lend_si : forall q m e m', posn c q m -> si None m -> qok m q -> lend c Ins ds a0 cfold q m e = Some m' -> si None m' /\ mle m m'.
Proof.
  intros q m e m' P X Q E. unfold lend in E. destruct (x_pc q) as [p|] eqn:XP; [|discriminate]. cbv zeta in E. pose proof (qo_pc _ _ Q p XP) as PK.
  destruct (pc_exp_ok m (x_k q) p 0 PK) as [A1 A2]. destruct (set_pcx_inv c q m (pc_exp c p 0) P) as [P1 _]. destruct (set_pcx_si _ _ _ P X A1 A2) as [X1 M1].
  set (m1 := set_pcx m (x_b q) (pc_exp c p 0)) in *.
  assert (FIN : si (Some (x_b q)) m' /\ mle m1 m' /\ f_succs (m_f m') (x_b q) <> [] -> si None m' /\ mle m m').
  { intros (Y1 & Y2 & Y3). split; [eapply si_close; eassumption|eapply mle_trans; eassumption]. }
  apply FIN. destruct e; [discriminate|eapply lbr_si; eassumption|]. destruct p as [v|a|v b1 b2|v a]; cbn [pok] in PK.
  - eapply lbr_si; eassumption.
  - destruct (rblk c Ins ds a0 m1 a) as [[m2 t]|] eqn:RB; [|discriminate]. destruct (rblk_inv _ _ _ _ _ _ _ _ (pn_wf _ _ _ P1) RB) as (W2 & _ & PQ & _). destruct (rblk_si _ _ _ _ _ (pn_wf _ _ _ P1) X1 RB) as [X2 M2].
    destruct (lbr_si _ _ _ _ _ (PQ _ P1) X2 E) as (X3 & M3 & S3). split; [exact X3|]. split; [|exact S3]. eapply mle_trans; eassumption.
  - destruct PK as [B1 B2]. eapply lcond_si; [exact P1|exact X1| | |exact E]; [eapply ain_Pu; [exact M1|exact B1]|exact B2].
  - destruct PK as [B1 B2]. eapply lcond_si; [exact P1|exact X1| | |exact E].
    + split; [eapply ain_Pu; [exact M1|exact B1]|exact I].
    + eapply sty_2; [exact B2|apply sty_const; reflexivity|reflexivity].
Qed.
Lemma lsegs_si : forall l q m e m', posn c q m -> si None m -> qok m q -> lsegs c Ins ds a0 cfold gcache q m l e = Some m' -> si None m' /\ mle m m'.
Proof.
  induction l as [|[[i d] code] l IH]; intros q m e m' P X Q E; cbn [lsegs] in E.
  - eapply lend_si; eassumption.
  - destruct (lstms c gcache q m code) as [[m1 x]|] eqn:L1; [|discriminate]. destruct (lstms_si _ _ _ _ _ P X Q L1) as (X1 & M1 & R). destruct x as [q1|].
    + destruct (R _ eq_refl) as [P1 Q1]. destruct (IH _ _ _ _ P1 X1 Q1 E) as [X2 M2]. split; [exact X2|eapply mle_trans; eassumption].
    + destruct (is_nil l); [|discriminate]. destruct e; try discriminate. injection E as <-. auto.
Qed.
Lemma lblk_si : forall m b m', wf c m -> si None m -> lblk c Ins ds a0 cfold gcache m b = Some m' -> si None m' /\ mle m m'.
Proof.
  intros m b m' W X E. unfold lblk in E. destruct (resolve Ins ds (lb_addr Ins b)) eqn:RS; [|discriminate].
  destruct (rblk c Ins ds a0 m (lb_addr Ins b)) as [[m1 t]|] eqn:RB; [|discriminate]. destruct (rblk_inv _ _ _ _ _ _ _ _ W RB) as (W1 & _). destruct (rblk_si _ _ _ _ _ W X RB) as [X1 M1].
  cbv zeta in E. destruct (cop1 c m1 (CInit t false)) as [m2|] eqn:CI; [|discriminate].
  destruct (init_inv _ _ _ _ _ W1 CI) as (_ & _ & W2 & F2 & S2 & _). destruct (init_si _ _ _ _ _ W1 X1 CI) as (X2 & M2 & _); [discriminate|].
  destruct (lsegs_si (lb_code _ b) (Loc t (f_n (m_f m1)) (fun _ => None) None) m2 (lb_end _ b) m') as [X3 M3]; [split; assumption|exact X2|split; discriminate|exact E|].
  split; [exact X3|]. eapply mle_trans; [exact M1|]. eapply mle_trans; eassumption.
Qed.
Lemma lblks_si : forall l m m', wf c m -> si None m -> lblks c Ins ds a0 cfold gcache m l = Some m' -> si None m' /\ mle m m' /\ wf c m'.
Proof.
  induction l as [|b l IH]; intros m m' W X E; cbn [lblks] in E.
  - injection E as <-. split; [exact X|]. split; [apply mle_refl|exact W].
  - destruct (lblk c Ins ds a0 cfold gcache m b) as [m1|] eqn:L1; [|discriminate]. destruct (lblk_inv _ _ _ _ _ _ _ _ _ W L1) as (W1 & _). destruct (lblk_si _ _ _ W X L1) as [X1 M1].
    destruct (IH _ _ W1 X1 E) as (X2 & M2 & W2). split; [exact X2|]. split; [eapply mle_trans; eassumption|exact W2].
Qed.
Lemma si0 : si None em0.
Proof.
  split; cbn [em0 m_f m_code m_term m_pcx fn0 f_h]; try discriminate; [|intro k; exact I].
  split; [reflexivity| |discriminate]. intros k r. repeat constructor.
Qed.
Lemma lstart_si : forall m, lstart c Ins ds a0 = Some m -> si None m /\ wf c m.
Proof.
  intros m E. unfold lstart in E.
  assert (W0 : wf c em0) by (split; [constructor|reflexivity|constructor]).
  destruct (cop1 c em0 (CBlock (Some 0%nat))) as [n1|] eqn:C1; [|discriminate]. destruct (cblock_inv _ _ _ _ W0 C1) as (V1 & _ & MM1 & _ & N1 & LG1 & NB1 & FF1 & SS1).
  destruct (cblock_si _ _ _ _ W0 si0 C1) as [X1 _].
  destruct (cop1 c n1 CEntry) as [n2|] eqn:C2; [|discriminate]. pose proof (cop1_built _ _ _ _ C2 (wf_built _ _ V1)) as BT2. destruct (cop1_inv _ _ _ _ C2) as (f2 & _ & CX2 & MM2). cbn [cexec1] in CX2.
  assert (S0 : f_succs (m_f n1) 0%nat = []) by (rewrite SS1; apply updn_eq).
  destruct (unpack_si None n1 0%nat f2) as (X2 & _ & _); [apply fresh_ini; apply V1|exact X1|exact CX2|exact S0|discriminate|].
  apply unpack_inv in CX2. destruct CX2 as ((l2 & y & EL & LD) & EN & _ & _ & EF & _ & ES & _ & _).
  rewrite <- MM2 in X2.
  assert (P2 : posn c (Loc 0 0 (fun _ => None) None) n2).
  { rewrite MM2 in *. cbn [m_f with_f] in BT2. split; cbn [x_b x_k m_f with_f].
    - split; cbn [m_f with_f m_code m_blk]; [exact BT2|..]; rewrite MM1; [reflexivity|constructor].
    - rewrite EF, N1. apply updn_eq.
    - rewrite ES. exact S0. }
  destruct (rblk c Ins ds a0 n2 a0) as [[n3 t]|] eqn:RB; [|discriminate]. destruct (rblk_inv _ _ _ _ _ _ _ _ (pn_wf _ _ _ P2) RB) as (W3 & _ & PQ & _).
  destruct (rblk_si _ _ _ _ _ (pn_wf _ _ _ P2) X2 RB) as [X3 _].
  destruct (Nat.eqb_spec t 1) as [->|]; [|discriminate]. destruct (lbr c (Loc 0 0 (fun _ => None) None) n3 1) as [n4|] eqn:BR; [|discriminate].
  destruct (lbr_inv _ _ _ _ _ (PQ _ P2) BR). destruct (lbr_si _ _ _ _ _ (PQ _ P2) X3 BR) as (X4 & _). destruct (cblock_inv _ _ _ _ br_wf E) as (W5 & _).
  destruct (cblock_si _ _ _ _ br_wf X4 E) as [X5 _]. auto.
Qed.
(** The function as a whole: the invariant holds, apart from the exit block's use of the
    PHI node for the PC, which is not in any code. *)
Record lsi (M : em) (npc : nat) : Prop := {
  ls_h : hin (ini M) (Pu M) (f_h (m_f M));
  ls_code : forall k, ucode M k (m_code M k);
  ls_term : forall k t, m_term M k = Some t -> (k < f_n (m_f M))%nat /\ ttyped t /\
            ((forall x, In x (tops t) -> ain (Pu M k) x) \/ k = own npc /\ t = TRet (ELeaf (AVar npc (TInt 64)))) /\
            (forall g x k', t = TCall g x k' -> (k < k' < f_n (m_f M))%nat /\ ini M k' = InitNone /\ k' <> O) /\
            forall b', In b' (tgts t) -> exists b, f_file (m_f M) b = Some k /\ In b' (f_succs (m_f M) b);
  ls_pcx : forall b x, m_pcx M b = Some x -> f_succs (m_f M) b <> [] /\ exists k, f_file (m_f M) b = Some k /\ ain (Pu M k) x /\ sty x (TInt 64);
  ls_npc : f_first (m_f M) exitb = Some (own npc) /\ m_code M (own npc) = [];
}.
Theorem lower_si : forall bs M npc, lower c Ins ds a0 cfold gcache bs = Some (M, npc) -> lsi M npc.
Proof.
  intros bs M npc E. pose proof (lower_inv _ _ _ _ _ _ _ _ _ E) as LW. unfold lower in E. destruct (lstart c Ins ds a0) as [m0|] eqn:ST; [|discriminate]. destruct (lstart_si _ ST) as [X0 W0].
  destruct (lblks c Ins ds a0 cfold gcache m0 bs) as [m1|] eqn:LB; [|discriminate]. destruct (lblks_si _ _ _ W0 X0 LB) as (X1 & _ & W1).
  unfold lfin in E. cbv zeta in E. destruct (cop1 c m1 (CInit exitb true)) as [m2|] eqn:CI; [|discriminate].
  destruct (init_inv _ _ _ _ _ W1 CI) as (_ & _ & W2 & F2 & S2 & FI2 & _ & N2). destruct (init_si _ _ _ _ _ W1 X1 CI) as (X2 & M2 & C2); [discriminate|].
  destruct (cop1 c m2 (CRet exitb)) as [m3|] eqn:CR; [|discriminate]. injection E as <- <-.
  destruct (ret_si _ _ _ _ X2 CR) as (X3 & M3 & C3); [discriminate|].
  destruct (ret_inv c (Loc exitb (f_n (m_f m1)) (fun _ => None) None) m2 m3 (TBr 0)) as (_ & _ & _ & _ & _ & _ & _ & N3); [split; assumption|exact CR|]. cbn [m_f end_with] in N3.
  set (k := f_n (m_f m1)) in *. set (t := TRet _) in *. split.
  - exact (si_h _ _ X3).
  - intro k'. eapply ucode_mono; [apply mle_end|]. exact (si_code _ _ X3 k').
  - intros k' t'. cbn [end_with m_term]. unfold updn. destruct (Nat.eqb_spec k k') as [<-|].
    + intro E. injection E as <-. cbn [m_f end_with]. split; [lia|]. split; [apply (sty_leaf (AVar _ (TInt 64))); reflexivity|]. split; [right; rewrite own_num; auto|]. split; [discriminate|intros b' []].
    + intro E. destruct (si_term _ _ X3 k' t' E) as (T1 & T2 & T3 & T4). split; [exact T1|]. split; [exact T3|]. split; [left; exact T2|exact T4].
  - intros b x E. destruct (si_pcx _ _ X3 b x E) as (S1 & R). split; [|exact R]. destruct S1 as [S1|S1]; [exact S1|discriminate].
  - rewrite own_num. cbn [m_f end_with m_code]. split; [apply (ml_first _ _ M3); exact FI2|]. rewrite C3, C2. apply (wf_fresh _ _ W1). unfold k. lia.
Qed.
End Ssa.
