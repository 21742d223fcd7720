(** Which statements the code of one x86-64 instruction consists of: general
    purpose code does not touch vector registers, and only jumps, calls and returns
    touch the PC. *)

From Coq Require Import ZArith Lia ZifyBool List Bool Arith.
From Verif Require Import Bits IR Facet Dsl Rv64 Rv64Spec X86 X86Run X86Sse LiftFn.
Import ListNotations.
Open Scope Z_scope.

(** Not a vector register; no change of the PC, no call, no return. *)
Definition novec (r : areg) : bool := match r with VEC _ => false | _ => true end.
Definition nvec (x : stm) : bool :=
  match x with SSet r _ | SMerge r _ | SSetT r _ _ _ _ _ => novec r | SCall _ => false | _ => true end.
Definition npc (x : stm) : bool :=
  match x with SPcConst _ | SPcVal _ | SPcCond _ _ _ | SPcCallret _ | SCall _ | SRet => false | _ => true end.
Definition qt (x : stm) : bool := nvec x && npc x.

Lemma fb_app : forall P (a b : list stm), forallb P a = true -> forallb P b = true -> forallb P (a ++ b) = true.
Proof. intros P a b A B. rewrite forallb_app, A, B. reflexivity. Qed.
Lemma fb_cons : forall P (x : stm) l, P x = true -> forallb P l = true -> forallb P (x :: l) = true.
Proof. intros P x l A B. cbn [forallb]. rewrite A, B. reflexivity. Qed.
Lemma fb_imp : forall (P Q : stm -> bool) l, (forall x, P x = true -> Q x = true) -> forallb P l = true -> forallb Q l = true.
Proof. intros P Q l I E. rewrite forallb_forall in *. auto. Qed.
Lemma qt_nvec : forall x, qt x = true -> nvec x = true.
Proof. intros x E. apply andb_prop in E. tauto. Qed.
Lemma qt_npc : forall x, qt x = true -> npc x = true.
Proof. intros x E. apply andb_prop in E. tauto. Qed.

(** ** Effect *)
Section Eff.
Context `{FpuOps}.
Variable c : cenv.
Ltac crack E := unfold bind in E; repeat match type of E with
    | match ?e with _ => _ end = Ok _ => destruct e; try discriminate E
    | (if ?e then _ else _) = Ok _ => destruct e; try discriminate E
    end; try (injection E as <-).
Lemma run1_nvec : forall s x s', nvec x = true -> run1 c s x = Ok s' -> forall n, s_reg s' (VEC n) = s_reg s (VEC n).
Proof.
  intros s x s' N E n. destruct x; try discriminate N; cbn [run1] in E; crack E; try reflexivity;
    cbn [with_reg s_reg]; unfold upd_reg; destruct r; try discriminate N; reflexivity.
Qed.
Lemma run1_npc : forall s x s', npc x = true -> run1 c s x = Ok s' -> s_pc s' = s_pc s /\ s_ret s' = s_ret s.
Proof. intros s x s' N E. destruct x; try discriminate N; cbn [run1] in E; crack E; split; reflexivity. Qed.
Lemma run_nvec : forall l s s', forallb nvec l = true -> run c s l = Ok s' -> forall n, s_reg s' (VEC n) = s_reg s (VEC n).
Proof.
  induction l as [|x l IH]; intros s s' N E n; cbn [run] in E; [injection E as <-; reflexivity|].
  cbn [forallb] in N. apply andb_prop in N. destruct N as [N1 N2].
  destruct (run1 c s x) as [s1| |] eqn:E1; cbn [bind] in E; try discriminate. rewrite (IH _ _ N2 E). eapply run1_nvec; eassumption.
Qed.
Lemma run_npc : forall l s s', forallb npc l = true -> run c s l = Ok s' -> s_pc s' = s_pc s /\ s_ret s' = s_ret s.
Proof.
  induction l as [|x l IH]; intros s s' N E; cbn [run] in E; [injection E as <-; split; reflexivity|].
  cbn [forallb] in N. apply andb_prop in N. destruct N as [N1 N2].
  destruct (run1 c s x) as [s1| |] eqn:E1; cbn [bind] in E; try discriminate. destruct (IH _ _ N2 E) as [-> ->]. eapply run1_npc; eassumption.
Qed.
Lemma arun_npc : forall l s s', forallb npc (map snd l) = true -> arun c s l = Ok s' -> s_pc s' = s_pc s /\ s_ret s' = s_ret s.
Proof.
  induction l as [|[al x] l IH]; intros s s' N E; cbn [arun] in E; [injection E as <-; split; reflexivity|].
  cbn [map snd forallb] in N. apply andb_prop in N. destruct N as [N1 N2].
  destruct (aok c s al x) as [[|]| |]; cbn [bind] in E; try discriminate.
  destruct (run1 c s x) as [s1| |] eqn:E1; cbn [bind] in E; try discriminate. destruct (IH _ _ N2 E) as [-> ->]. eapply run1_npc; eassumption.
Qed.
Lemma phis_regs : forall s b l s', do_phis c s b l = Ok s' -> (forall r, s_reg s' r = s_reg s r) /\ s_pc s' = s_pc s /\ s_ret s' = s_ret s.
Proof. intros s b l s' E. unfold do_phis in E. destruct (phi_vals c s b l); cbn [bind] in E; try discriminate. injection E as <-. repeat split. Qed.
Lemma rounds_qt : forall phi b a n s s', forallb qt b = true -> rounds c phi b a n s = Fin (Ok s') ->
  (forall n, s_reg s' (VEC n) = s_reg s (VEC n)) /\ s_pc s' = s_pc s /\ s_ret s' = s_ret s.
Proof.
  intros phi b a n s s' Q. revert s. induction n as [|n IH]; intros s E; cbn [rounds] in E; [discriminate|]. unfold round in E.
  destruct (run c s b) as [s1| |] eqn:R; [|discriminate..].
  pose proof (run_nvec _ _ _ (fb_imp _ _ _ qt_nvec Q) R) as V1. pose proof (run_npc _ _ _ (fb_imp _ _ _ qt_npc Q) R) as [P1 T1].
  destruct (cond_val c s1 a) as [[|]| |]; [|injection E as <-; auto|discriminate..].
  destruct (do_phis c s1 true phi) as [s2| |] eqn:D; [|discriminate..]. destruct (phis_regs _ _ _ _ D) as (V2 & P2 & T2).
  destruct (IH s2 E) as (V3 & P3 & T3). split; [intros m; rewrite V3, V2; apply V1|]. split; congruence.
Qed.
End Eff.

(** The statements of an [xcode]. *)
Definition xall (P : stm -> bool) (k : xcode) : bool :=
  match k with
  | CPlain l => forallb P l
  | CLoop h _ _ b _ _ cont => forallb P h && forallb P b && forallb P cont
  | CIf h _ l1 l2 _ cont => forallb P h && forallb P l1 && forallb P l2 && forallb P cont
  end.
Lemma xrunq_qt : forall `{FpuOps} c p s k s', xall qt k = true -> xrunq c p s k = Ok s' ->
  (forall n, s_reg s' (VEC n) = s_reg s (VEC n)) /\ s_pc s' = s_pc s /\ s_ret s' = s_ret s.
Proof.
  intros F c p s k s' A E.
  assert (RQ : forall l a b, forallb qt l = true -> run c a l = Ok b -> (forall n, s_reg b (VEC n) = s_reg a (VEC n)) /\ s_pc b = s_pc a /\ s_ret b = s_ret a).
  { intros l a b Q R. split; [eapply run_nvec; [apply (fb_imp _ _ _ qt_nvec Q)|exact R]|]. eapply run_npc; [apply (fb_imp _ _ _ qt_npc Q)|exact R]. }
  assert (TR : forall a b d : st, (forall n, s_reg b (VEC n) = s_reg a (VEC n)) /\ s_pc b = s_pc a /\ s_ret b = s_ret a ->
     (forall n, s_reg d (VEC n) = s_reg b (VEC n)) /\ s_pc d = s_pc b /\ s_ret d = s_ret b ->
     (forall n, s_reg d (VEC n) = s_reg a (VEC n)) /\ s_pc d = s_pc a /\ s_ret d = s_ret a).
  { intros a b d (A1 & A2 & A3) (B1 & B2 & B3). split; [intros; rewrite B1; apply A1|]. split; congruence. }
  assert (PQ : forall a t l b, do_phis c a t l = Ok b -> (forall n, s_reg b (VEC n) = s_reg a (VEC n)) /\ s_pc b = s_pc a /\ s_ret b = s_ret a).
  { intros a t l b D. destruct (phis_regs _ _ _ _ _ D) as (X & Y). split; [intros; apply X|exact Y]. }
  destruct k as [l|h g phi b a cphi cont|h g l1 l2 phi cont]; cbn [xrunq xall] in *.
  - eapply RQ; eassumption.
  - apply andb_prop in A. destruct A as [A A3]. apply andb_prop in A. destruct A as [A1 A2].
    destruct (run c s h) as [s1| |] eqn:R; try discriminate. cbn [bind] in E.
    destruct (cond_val c s1 g) as [[|]| |] eqn:C; try discriminate; cbn [bind] in E.
    + destruct (do_phis c s1 false phi) as [s2| |] eqn:D; try discriminate. cbn [bind] in E. unfold loopq in E. rewrite roundp_rounds in E.
      destruct (rounds c phi b a (Pos.to_nat p) s2) as [x|[s3| |]] eqn:L; try discriminate. cbn [bind] in E.
      destruct (do_phis c s3 true cphi) as [s4| |] eqn:D4; try discriminate. cbn [bind] in E.
      eapply TR; [eapply RQ; [exact A1|exact R]|]. eapply TR; [eapply PQ, D|]. eapply TR; [eapply rounds_qt; [exact A2|exact L]|].
      eapply TR; [eapply PQ, D4|]. eapply RQ; eassumption.
    + destruct (do_phis c s1 false cphi) as [s2| |] eqn:D; try discriminate. cbn [bind] in E.
      eapply TR; [eapply RQ; [exact A1|exact R]|]. eapply TR; [eapply PQ, D|]. eapply RQ; eassumption.
  - apply andb_prop in A. destruct A as [A A4]. apply andb_prop in A. destruct A as [A A3]. apply andb_prop in A. destruct A as [A1 A2].
    destruct (run c s h) as [s1| |] eqn:R; try discriminate. cbn [bind] in E.
    destruct (cond_val c s1 g) as [t| |] eqn:C; try discriminate; cbn [bind] in E.
    destruct (run c s1 (if t then l1 else l2)) as [s2| |] eqn:R2; try discriminate. cbn [bind] in E.
    destruct (do_phis c s2 (negb t) phi) as [s3| |] eqn:D; try discriminate. cbn [bind] in E.
    eapply TR; [eapply RQ; [exact A1|exact R]|]. eapply TR; [eapply RQ; [|exact R2]; destruct t; assumption|].
    eapply TR; [eapply PQ, D|]. eapply RQ; eassumption.
Qed.

(** ** General purpose and string instructions *)
Section Gp.
Variable c : cenv.
Variable cfg : xcfg.
Variables kc kcp : areg -> konst.
Lemma qt_StoreGpFacet : forall r f v, novec r = true -> forallb qt (StoreGpFacet r f v) = true.
Proof. intros r f v N. unfold StoreGpFacet. destruct f; cbn [forallb]; unfold qt, nvec, npc; rewrite N; reflexivity. Qed.
Lemma qt_OpLoadSeg : forall seg x o f, forallb qt (OpLoadSeg c cfg kc seg x o f) = true.
Proof. intros. unfold OpLoadSeg. destruct o; reflexivity. Qed.
Lemma qt_OpStoreGpK : forall k o w v, forallb qt (OpStoreGpK c cfg k o w v) = true.
Proof. intros. unfold OpStoreGpK. destruct o; try reflexivity. destruct (w =? w0); [|reflexivity]. apply qt_StoreGpFacet. reflexivity. Qed.
Lemma qt_undef : forall l, forallb novec l = true -> forallb qt (SetFlagUndef l) = true.
Proof.
  induction l as [|r l IH]; intros N; [reflexivity|]. cbn [forallb] in N. apply andb_prop in N. destruct N as [N1 N2].
  cbn [SetFlagUndef map forallb]. unfold SetFlagUndef in IH. rewrite (IH N2), andb_true_r. unfold qt, nvec, npc. rewrite N1. reflexivity.
Qed.
Lemma qt_add : forall w a b d s, forallb qt (FlagCalcAdd cfg w a b d s) = true.
Proof. intros. unfold FlagCalcAdd. destruct s, (xl_ovf cfg); reflexivity. Qed.
Lemma qt_sub : forall w a b d s z, forallb qt (FlagCalcSub w a b d s z) = true.
Proof. intros. unfold FlagCalcSub. destruct s, z; reflexivity. Qed.
Lemma qt_from : forall l w v, forallb (fun p => novec (fst p)) l = true -> forallb qt (FlagFromReg_loop w v l) = true.
Proof.
  induction l as [|[f k] l IH]; intros w v N; [reflexivity|]. cbn [forallb fst] in N. apply andb_prop in N. destruct N as [N1 N2].
  cbn [FlagFromReg_loop]. destruct (w <=? k); [reflexivity|]. cbn [forallb]. rewrite (IH w v N2), andb_true_r.
  unfold qt, nvec, npc. destruct (areg_eqb f PF); rewrite N1; reflexivity.
Qed.
Ltac qs := repeat first [reflexivity | apply qt_StoreGpFacet; reflexivity | apply qt_OpLoadSeg | apply qt_OpStoreGpK | apply qt_undef; reflexivity
  | apply qt_add | apply qt_sub | apply qt_from; reflexivity | apply fb_app | apply fb_cons
  | match goal with
    | |- forallb qt (if ?b then _ else _) = true => destruct b
    | |- forallb qt (match ?b with _ => _ end) = true => destruct b
    | |- qt (if ?b then _ else _) = true => destruct b
    end].
Lemma lift_gp_qt : forall kd i l, (match x_mn i with X_J _ | X_JMP | X_JCXZ | X_LOOP | X_LOOPZ | X_LOOPNZ | X_CALL | X_RET | X_SYSCALL => false | _ => true end) = true ->
  lift_gp c cfg kc kcp kd i = Some l -> forallb qt l = true.
Proof.
  intros kd i l NJ E. unfold lift_gp in E.
  assert (X : forall l0, Some l0 = Some l -> forallb qt l0 = true -> forallb qt l = true) by (intros l0 Q; injection Q as ->; auto).
  destruct (x_mn i) eqn:MN; try discriminate E; try discriminate NJ; apply (X _ E); clear X E NJ.
  all: unfold LiftPush, LiftPushf, LiftPopf, LiftPop, LiftLeave, LiftMovgp, LiftMovzx, LiftMovbe, LiftArith, LiftCmpxchg, LiftXchg, LiftLea, LiftXlat,
    LiftNot, LiftNeg, LiftIncDec, LiftMul, LiftDiv, LiftShift, LiftRotate, LiftShiftdouble, LiftBitscan, LiftPopcnt, LiftBittest, LiftBswap, LiftCext, LiftCsep,
    LiftCmovcc, LiftSetcc, StackPush, StackPop, StoreGpX, OpLoad, OpStoreGp, FlagCalcZ, FlagCalcSAPLogic, FlagFromReg; cbv zeta; rewrite ?MN.
  all: try (qs; fail).
  all: unfold LiftAndOrXor; cbv zeta; rewrite ?MN; unfold OpLoad, OpStoreGp, FlagCalcZ, FlagCalcSAPLogic; try (qs; fail).
Qed.
Lemma lift_str_qt : forall i k, lift_str i = Some k -> xall qt k = true.
Proof.
  intros i k E. unfold lift_str in E.
  assert (X : forall k0, Some k0 = Some k -> xall qt k0 = true -> xall qt k = true) by (intros k0 Q; injection Q as ->; auto).
  destruct (x_mn i) eqn:MN; try discriminate E; apply (X _ E); clear X E;
  unfold LiftLods, LiftStos, LiftMovs, LiftScas, LiftCmps, str_code; cbv zeta.
  2: destruct (x_rep i && (x_opsz i =? 1)); [reflexivity|].
  all: destruct (rep_mode i); unfold rep_loop, rep_end_plain, rep_head, rep_save, rep_merge_flags, StoreGpX; cbn [xall];
    destruct (str_di i), (str_si i), (x_opsz i =? 4); rewrite ?forallb_app, ?qt_sub, ?qt_StoreGpFacet by reflexivity; reflexivity.
Qed.
End Gp.

(** ** SSE instructions *)
Definition anpc (p : astm) : bool := npc (snd p).
Section Sse.
Variable c : cenv.
Variable cfg : xcfg.
Variable kc : areg -> konst.
Lemma an_app : forall a b, forallb anpc a = true -> forallb anpc b = true -> forallb anpc (a ++ b) = true.
Proof. intros a b A B. rewrite forallb_app, A, B. reflexivity. Qed.
Lemma an_cons : forall x a, anpc x = true -> forallb anpc a = true -> forallb anpc (x :: a) = true.
Proof. intros x a A B. cbn [forallb]. rewrite A, B. reflexivity. Qed.
Lemma an_A1 : forall l, forallb npc l = true -> forallb anpc (A1 l) = true.
Proof. induction l as [|x l IH]; intros E; [reflexivity|]. cbn [forallb A1 map] in *. apply andb_prop in E. destruct E as [E1' E2']. unfold anpc at 1. cbn [snd]. rewrite E1'. exact (IH E2'). Qed.
Lemma an_qload : forall x o f a, forallb anpc (qload c cfg kc x o f a) = true.
Proof. intros. unfold qload. destruct o; reflexivity. Qed.
Lemma an_qstore : forall o t e a, forallb anpc (qstore c cfg kc o t e a) = true.
Proof. intros. unfold qstore. destruct o; reflexivity. Qed.
Lemma an_gstore : forall o t e, forallb anpc (gstore c cfg kc o t e) = true.
Proof.
  intros. unfold gstore. destruct o; try reflexivity. destruct (tsize t =? w); [|reflexivity]. apply an_A1.
  apply (fb_imp qt npc); [exact qt_npc|]. apply qt_StoreGpFacet. reflexivity.
Qed.
Ltac hd x := match x with ?f _ => hd f | _ => constr:(x) end.
Ltac an := repeat first [reflexivity | apply an_qload | apply an_qstore | apply an_gstore | apply an_A1; reflexivity | apply an_app | apply an_cons
  | match goal with
    | |- forallb anpc (if ?b then _ else _) = true => destruct b
    | |- forallb anpc (match ?b with _ => _ end) = true => destruct b
    end].
Lemma lift_sse_npc : forall i, forallb anpc (lift_sse c cfg kc i) = true.
Proof.
  intros i. unfold lift_sse. destruct (i_mn i) eqn:MN.
  all: match goal with |- forallb anpc (_ ++ _) = true => idtac | |- forallb anpc (if _ then _ else _) = true => idtac | |- forallb anpc ?x = true => let h := hd x in try unfold h end.
  all: cbv zeta; rewrite ?MN; try (an; fail).
Qed.
End Sse.
