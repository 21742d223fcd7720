(** Every block that branches to the exit block has an incoming value for the PHI node of
    the PC there (function.cc:182-193, 205-208). *)
From Coq Require Import ZArith Lia List Bool Arith.
From Verif Require Import Bits IR Facet Dsl RegFile RegFileOk RegScript Layout Cfg CfgHeap CfgLog CfgBuild Decode LiftFn Lower LowerOk.
Import ListNotations.

Section Pc.
Context `{FpuOps}.
Variable c : cenv.
Notation A := (c_arch c).
Variable Ins : Type.
Variable ds : dst Ins.
Variable a0 : Z.
Variable cfold : nat -> exp atom -> option bool.
Variable gcache : nat -> bool.

(** No new branches, and no changes of incoming values. *)
Definition quiet (m m' : em) : Prop := m_pcx m' = m_pcx m /\ forall b t, In t (f_succs (m_f m') b) -> In t (f_succs (m_f m) b).
Definition pcs (m : em) : Prop := forall b, In exitb (f_succs (m_f m) b) -> m_pcx m b <> None.
Lemma quiet_refl : forall m, quiet m m.
Proof. intro m. split; auto. Qed.
Lemma quiet_trans : forall a b d, quiet a b -> quiet b d -> quiet a d.
Proof. intros a b d [P1 Q1] [P2 Q2]. split; [congruence|]. intros k t I0. apply Q1, Q2, I0. Qed.
Lemma quiet_same : forall m m', m_pcx m' = m_pcx m -> f_succs (m_f m') = f_succs (m_f m) -> quiet m m'.
Proof. intros m m' E F. split; [exact E|]. rewrite F. auto. Qed.
Lemma quiet_pcs : forall m m', quiet m m' -> pcs m -> pcs m'.
Proof. intros m m' [E Q] P b I0. rewrite E. apply P, Q, I0. Qed.
Lemma rop_q : forall f o f', do_rop A f o = Some f' -> f_succs f' = f_succs f.
Proof. intros f o f' E. unfold do_rop in E. destruct (exec1 A (f_n f, f_h f) o) as [[[n h] x]|]; [|discriminate]. injection E as <-. reflexivity. Qed.
Lemma file_q : forall f b i f', new_file A f b i = Some f' -> f_succs f' = f_succs f.
Proof. intros f b i f' E. unfold new_file in E. destruct (do_rop A f (ONew i)) as [f1|] eqn:D; [|discriminate]. injection E as <-. exact (rop_q _ _ _ D). Qed.
Lemma pack_q : forall f b n f', do_pack f b n = Some f' -> f_succs f' = f_succs f.
Proof. intros f b n f' E. unfold do_pack in E. destruct (f_file f b); [|discriminate]. injection E as <-. reflexivity. Qed.
Lemma cop_q : forall m o m', cop1 c m o = Some m' -> match o with CBr _ _ | CCond _ _ _ => False | _ => True end -> quiet m m'.
Proof.
  intros m o m' E NB. destruct (cop1_inv _ _ _ _ E) as (f' & _ & CX & ->). destruct o as [mx| |b seal|b w|b|b|b t|b t o']; try contradiction; cbn [cexec1] in CX.
  - injection CX as <-. split; [reflexivity|]. intros b t. cbn [m_f with_f new_block f_succs]. unfold updn. destruct (Nat.eqb (f_nb (m_f m)) b); [intros []|auto].
  - apply quiet_same; [reflexivity|]. cbn [m_f with_f]. apply unpack_inv in CX. apply CX.
  - apply quiet_same; [reflexivity|]. cbn [m_f with_f]. unfold init_with_phis in CX.
    repeat match type of CX with context [match ?x with _ => _ end] => destruct x; try discriminate end; exact (file_q _ _ _ _ CX).
  - apply quiet_same; [reflexivity|]. cbn [m_f with_f]. destruct (f_file (m_f m) b); [|discriminate]. exact (rop_q _ _ _ CX).
  - apply quiet_same; [reflexivity|]. cbn [m_f with_f]. unfold do_call in CX. destruct (do_pack (m_f m) b _) as [f1|] eqn:D; [|discriminate]. rewrite <- (pack_q _ _ _ _ D). apply unpack_inv in CX. apply CX.
  - apply quiet_same; [reflexivity|]. exact (pack_q _ _ _ _ CX).
Qed.
Lemma get_q : forall q m r f m' v, get c gcache q m r f = Some (m', v) -> quiet m m'.
Proof.
  intros q m r f m' v E. unfold get in E. destruct (cop1 c m _) as [m1|] eqn:C1; [|discriminate]. apply cop_q in C1; [|exact I].
  destruct (f_log (m_f m1)) as [|[? [?|]] ?]; try discriminate. injection E as <- <-. exact C1.
Qed.
Ltac qb E := repeat match type of E with
  | (match ?x with _ => _ end) = Some _ => let Q := fresh "Q" in destruct x eqn:Q; try discriminate E
  | (let '(_, _) := ?x in _) = Some _ => destruct x
  | (if ?x then _ else _) = Some _ => let Q := fresh "Q" in destruct x eqn:Q; try discriminate E
  end.
Ltac qt := repeat match goal with
  | |- quiet ?m ?m => apply quiet_refl
  | Q : quiet ?a ?m |- quiet ?a ?m => exact Q
  | Q : quiet ?a ?b |- quiet ?a ?m => apply (quiet_trans _ _ _ Q); clear Q
  end.
Lemma low_q : forall q e m m' x t, low c gcache q m e = Some (m', x, t) -> quiet m m'.
Proof.
  intros q. induction e as [[x|r f|off]|t z|t|o a IHa|o a IHa b IHb|o a IHa b IHb d IHd|a IHa b IHb d IHd]; intros m m' y u E; cbn [low] in E; qb E;
    try (injection E as <- <- <-);
    repeat match goal with
    | L : low c gcache q _ ?e = Some _, IH : forall m m' x t, low c gcache q m ?e = Some (m', x, t) -> quiet m m' |- _ => apply IH in L
    | L : get c gcache q _ _ _ = Some _ |- _ => apply get_q in L
    end; qt.
Qed.
Lemma q_emit : forall m k d i, quiet m (emit m k d i).
Proof. intros. apply quiet_same; reflexivity. Qed.
Lemma q_end : forall m k t, quiet m (end_with m k t).
Proof. intros. apply quiet_same; reflexivity. Qed.
Lemma def_q : forall q m e m' v, def c gcache q m e = Some (m', v) -> quiet m m'.
Proof. intros q m e m' v E. unfold def in E. qb E. injection E as <- <-. match goal with L : low _ _ _ _ _ = Some _ |- _ => apply low_q in L end. eapply quiet_trans; [eassumption|apply q_emit]. Qed.
Lemma deft_q : forall q m e t m' v, deft c gcache q m e t = Some (m', v) -> quiet m m'.
Proof. intros q m e t m' v E. unfold deft in E. qb E. injection E as <- <-. eapply def_q. eassumption. Qed.
Lemma lowt_q : forall q m e t m' x, lowt c gcache q m e t = Some (m', x) -> quiet m m'.
Proof. intros q m e t m' x E. unfold lowt in E. qb E. injection E as <- <-. eapply low_q. eassumption. Qed.
Lemma wr_q : forall q m w m' q', wr c q m w = Some (m', q') -> quiet m m'.
Proof. intros q m w m' q' E. unfold wr in E. qb E. injection E as <- <-. eapply cop_q; [eassumption|exact I]. Qed.
Lemma lstm_q : forall q m i m' q', lstm c gcache q m i = Some (m', q') -> quiet m m'.
Proof.
  intros q m i m' q' E. destruct i; cbn [lstm] in E; cbv zeta in E; try discriminate E; qb E; try (injection E as <- <-);
    repeat match goal with
    | L : low _ _ _ _ _ = Some _ |- _ => apply low_q in L
    | L : lowt _ _ _ _ _ _ = Some _ |- _ => apply lowt_q in L
    | L : def _ _ _ _ _ = Some _ |- _ => apply def_q in L
    | L : deft _ _ _ _ _ _ = Some _ |- _ => apply deft_q in L
    | L : wr _ _ _ _ = Some _ |- _ => apply wr_q in L
    end; qt; try apply q_emit.
Qed.
Lemma lcall_q : forall q m f m' q', lcall c q m f = Some (m', q') -> quiet m m'.
Proof.
  intros q m f m' q' E. unfold lcall in E. destruct (x_pc q); [|discriminate]. cbv zeta in E. destruct (cop1 c m _) as [m1|] eqn:C1; [|discriminate]. injection E as <- <-.
  apply cop_q in C1; [|exact I]. apply (quiet_trans _ _ _ C1). apply quiet_same; reflexivity.
Qed.
Lemma lret_q : forall q m m', lret c q m = Some m' -> quiet m m'.
Proof.
  intros q m m' E. unfold lret in E. destruct (x_pc q); [|discriminate]. destruct (cop1 c m _) as [m1|] eqn:C1; [|discriminate]. injection E as <-.
  apply cop_q in C1; [|exact I]. apply (quiet_trans _ _ _ C1). apply q_end.
Qed.
Lemma lstms_q : forall l q m m' x, lstms c gcache q m l = Some (m', x) -> quiet m m'.
Proof.
  induction l as [|i l IH]; intros q m m' x E; cbn [lstms] in E; [injection E as <- <-; apply quiet_refl|].
  destruct i;
    match type of E with
    | context [lcall] => destruct (lcall _ _ _ _) as [[m1 q1]|] eqn:L1 in E; [|discriminate E]; apply lcall_q in L1; apply IH in E; exact (quiet_trans _ _ _ L1 E)
    | context [lret] => destruct (lret _ _ _) as [m1|] eqn:L1 in E; [|discriminate E]; apply lret_q in L1; destruct (is_nil l) in E; [|discriminate E]; injection E as <- <-; exact L1
    | _ => destruct (lstm _ _ _ _ _) as [[m1 q1]|] eqn:L1 in E; [|discriminate E]; apply lstm_q in L1; apply IH in E; exact (quiet_trans _ _ _ L1 E)
    end.
Qed.
Lemma rblk_q : forall m a m' t, rblk c Ins ds a0 m a = Some (m', t) -> quiet m m'.
Proof.
  intros m a m' t E. unfold rblk in E. destruct (resolve Ins ds a); [|injection E as <- <-; apply quiet_refl].
  destruct (blk_at (m_blk m) a) as [b|]; [injection E as <- <-; apply quiet_refl|]. cbv zeta in E.
  destruct (cop1 c m _) as [m1|] eqn:C1; [|discriminate]. injection E as <- <-. apply cop_q in C1; [|exact I]. apply (quiet_trans _ _ _ C1). apply quiet_same; reflexivity.
Qed.
(** Branches. *)
Lemma br_pcs : forall m b t m', cop1 c m (CBr b t) = Some m' -> pcs m -> m_pcx m b <> None \/ t <> exitb -> pcs m'.
Proof.
  intros m b t m' E P PX. destruct (cop1_inv _ _ _ _ E) as (f' & _ & CX & ->). cbn [cexec1] in CX. unfold branch_to in CX.
  destruct (f_file (m_f m) b); [|discriminate]. destruct (f_succs (m_f m) b) eqn:SB; [|discriminate]. injection CX as <-.
  intros b' I0. change (m_pcx m b' <> None). cbn [m_f with_f f_succs] in I0. unfold updn in I0. destruct (Nat.eqb_spec b b') as [EB|NE] in I0; [|apply P; exact I0].
  rewrite <- EB. cbn [app] in I0. destruct I0 as [->|[]]. destruct PX as [PX|PX]; [exact PX|contradiction].
Qed.
Lemma cond_pcs : forall m b t o m', cop1 c m (CCond b t o) = Some m' -> pcs m -> m_pcx m b <> None -> pcs m'.
Proof.
  intros m b t o m' E P PX. destruct (cop1_inv _ _ _ _ E) as (f' & _ & CX & ->). cbn [cexec1] in CX. unfold cond_branch_to, branch_to in CX.
  intros b' I0. destruct (Nat.eqb_spec b b') as [<-|NE]; [exact PX|]. apply P.
  destruct (Nat.eqb t o); (destruct (f_file (m_f m) b); [|discriminate]); (destruct (f_succs (m_f m) b) eqn:SB; [|discriminate]); injection CX as <-;
    cbn [m_f with_f f_succs] in I0; unfold updn in I0; (destruct (Nat.eqb_spec b b'); [contradiction|]); exact I0.
Qed.
Lemma lbr_pcs : forall q m t m', lbr c q m t = Some m' -> pcs m -> m_pcx m (x_b q) <> None \/ t <> exitb -> pcs m'.
Proof.
  intros q m t m' E P PX. unfold lbr in E. destruct (cop1 c m _) as [m1|] eqn:C1; [|discriminate]. injection E as <-. eapply quiet_pcs; [apply q_end|]. eapply br_pcs; eassumption.
Qed.
Lemma lcond_pcs : forall q m x a1 a2 m', lcond c Ins ds a0 cfold q m x a1 a2 = Some m' -> pcs m -> m_pcx m (x_b q) <> None -> pcs m'.
Proof.
  intros q m x a1 a2 m' E P PX. unfold lcond in E. destruct (cfold (x_k q) x) as [z|].
  - destruct (rblk c Ins ds a0 _ _) as [[m1 t]|] eqn:R1; [|discriminate]. apply rblk_q in R1.
    assert (Q : quiet m m1) by (eapply quiet_trans; [|exact R1]; apply quiet_same; reflexivity).
    eapply lbr_pcs; [exact E|eapply quiet_pcs; eassumption|left; rewrite (proj1 Q); exact PX].
  - destruct (rblk c Ins ds a0 m a1) as [[m1 t]|] eqn:R1; [|discriminate]. apply rblk_q in R1.
    destruct (rblk c Ins ds a0 m1 a2) as [[m2 o]|] eqn:R2; [|discriminate]. apply rblk_q in R2. pose proof (quiet_trans _ _ _ R1 R2) as Q.
    destruct (cop1 c m2 _) as [m3|] eqn:C3; [|discriminate]. injection E as <-. eapply quiet_pcs; [apply q_end|]. eapply cond_pcs; [exact C3|eapply quiet_pcs; eassumption|rewrite (proj1 Q); exact PX].
Qed.
Lemma lend_pcs : forall q m e m', lend c Ins ds a0 cfold q m e = Some m' -> pcs m -> pcs m'.
Proof.
  intros q m e m' E P. unfold lend in E. destruct (x_pc q) as [p|]; [|discriminate]. cbv zeta in E. set (m1 := set_pcx m (x_b q) _) in *.
  assert (PX : m_pcx m1 (x_b q) <> None) by (unfold m1; cbn [set_pcx m_pcx]; rewrite updn_eq; discriminate).
  assert (P1 : pcs m1). { intros b I0. unfold m1 in *. cbn [set_pcx m_pcx m_f] in *. unfold updn. destruct (Nat.eqb (x_b q) b); [discriminate|]. apply P, I0. }
  destruct e; [discriminate|eapply lbr_pcs; eauto|]. destruct p as [v|a|v b1 b2|v a].
  - eapply lbr_pcs; eauto.
  - destruct (rblk c Ins ds a0 m1 a) as [[m2 t]|] eqn:R1; [|discriminate]. apply rblk_q in R1. eapply lbr_pcs; [exact E|eapply quiet_pcs; eassumption|left; rewrite (proj1 R1); exact PX].
  - eapply lcond_pcs; eassumption.
  - eapply lcond_pcs; eassumption.
Qed.
Lemma lsegs_pcs : forall l q m e m', lsegs c Ins ds a0 cfold gcache q m l e = Some m' -> pcs m -> pcs m'.
Proof.
  induction l as [|[[i d] code] l IH]; intros q m e m' E P; cbn [lsegs] in E; [eapply lend_pcs; eassumption|].
  destruct (lstms c gcache q m code) as [[m1 x]|] eqn:L1; [|discriminate]. apply lstms_q in L1. destruct x as [q1|].
  - eapply IH; [exact E|]. eapply quiet_pcs; eassumption.
  - destruct (is_nil l); [|discriminate]. destruct e; try discriminate. injection E as <-. eapply quiet_pcs; eassumption.
Qed.
Lemma lblks_pcs : forall l m m', lblks c Ins ds a0 cfold gcache m l = Some m' -> pcs m -> pcs m'.
Proof.
  induction l as [|b l IH]; intros m m' E P; cbn [lblks] in E; [injection E as <-; exact P|].
  destruct (lblk c Ins ds a0 cfold gcache m b) as [m1|] eqn:L1; [|discriminate]. apply (IH _ _ E). unfold lblk in L1.
  destruct (resolve Ins ds (lb_addr Ins b)); [|discriminate]. destruct (rblk c Ins ds a0 m _) as [[m2 t]|] eqn:R1; [|discriminate]. apply rblk_q in R1. cbv zeta in L1.
  destruct (cop1 c m2 _) as [m3|] eqn:C1; [|discriminate]. apply cop_q in C1; [|exact I]. eapply lsegs_pcs; [exact L1|]. exact (quiet_pcs _ _ (quiet_trans _ _ _ R1 C1) P).
Qed.
Theorem lower_pcs : forall bs M npc, lower c Ins ds a0 cfold gcache bs = Some (M, npc) -> pcs M.
Proof.
  intros bs M npc E. unfold lower in E. destruct (lstart c Ins ds a0) as [m0|] eqn:ST; [|discriminate].
  assert (P0 : pcs m0).
  { unfold lstart in ST. destruct (cop1 c em0 _) as [n1|] eqn:C1; [|discriminate]. apply cop_q in C1; [|exact I].
    destruct (cop1 c n1 CEntry) as [n2|] eqn:C2; [|discriminate]. apply cop_q in C2; [|exact I].
    destruct (rblk c Ins ds a0 n2 a0) as [[n3 t]|] eqn:R3; [|discriminate]. apply rblk_q in R3. destruct (Nat.eqb t 1); [|discriminate].
    destruct (lbr c (Loc 0 0 (fun _ => None) None) n3 1) as [n4|] eqn:BR; [|discriminate]. apply cop_q in ST; [|exact I].
    eapply quiet_pcs; [exact ST|]. eapply lbr_pcs; [exact BR| |right; discriminate].
    apply (quiet_pcs _ _ (quiet_trans _ _ _ C1 (quiet_trans _ _ _ C2 R3))). intros b []. }
  destruct (lblks c Ins ds a0 cfold gcache m0 bs) as [m1|] eqn:LB; [|discriminate]. apply lblks_pcs in LB; [|exact P0].
  unfold lfin in E. cbv zeta in E. destruct (cop1 c m1 _) as [m2|] eqn:C2; [|discriminate]. apply cop_q in C2; [|exact I].
  destruct (cop1 c m2 _) as [m3|] eqn:C3; [|discriminate]. apply cop_q in C3; [|exact I]. injection E as <- <-.
  eapply quiet_pcs; [|exact LB]. eapply quiet_trans; [exact C2|]. eapply quiet_trans; [exact C3|apply q_end].
Qed.
End Pc.
