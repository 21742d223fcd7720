(** Whole SSE instructions, sequences, and the cases in which lifted SSE code
    goes wrong. *)

From Coq Require Import ZArith Lia ZifyBool List Bool.
From Verif Require Import Bits IR Facet Dsl Rv64 Rv64Spec Rv64Sim Rv64Arith X86 X86Spec X86Arith X86Sim X86Ops X86Sse X86SseSpec X86SseVec X86SseSim X86SseOps X86SseOps2 X86SseOps3 X86SseOps4 X86SseStep X86SseStep2 X86SseStep3 X86SseMain.
Import ListNotations.
Open Scope Z_scope.
Ltac Zify.zify_post_hook ::= Z.div_mod_to_equations.

(** Lifted code for instruction [i] is about to run in state [s], which holds the
    guest state [g] with the instruction pointer at [i]. *)
Record s_ctx (c : cenv) (cfg : xcfg) (kc : areg -> konst) (i : sinst) (s : st) (g : zst) : Prop := SCtx {
  sc_arch : c_arch c = X86_64;
  sc_gb : gbase_ok c;
  sc_rel : zrel s g;
  sc_shape : s_shape i = true;
  sc_o0 : good_q cfg (i_op0 i) = true;
  sc_o1 : good_q cfg (i_op1 i) = true;
  sc_kc : xkc_sound kc (z_x g);
  sc_ip : y_ip (z_x g) = addr_pc_base c (i_start i);
}.
(** The guest state in which operands are evaluated. *)
Definition sadv (i : sinst) (g : zst) : zst := set_x g (set_ip (z_x g) (y_ip (z_x g) + i_len i)).
(** The lifted code runs without undefined behaviour and ends in a state holding
    [g'] with the PC at its instruction pointer. *)
Definition s_lifts `{FpuOps} (c : cenv) (cfg : xcfg) (kc : areg -> konst) (i : sinst) (s : st) (g' : zst) : Prop :=
  exists s', arun c s (lift_sinst c cfg kc i) = Ok s' /\ zrel s' g' /\
    pc_value c (s_pc s') 0 = Ok (V (TInt 64) (y_ip (z_x g'))) /\ s_ret s' = s_ret s.
(** Memory operands are aligned as the lifted accesses promise. *)
Definition s_natural (i : sinst) (g : zst) : Prop :=
  mem_al (over_src (i_mn i)) (sadv i g) (i_op1 i) /\ mem_al (over_dst (i_mn i)) (sadv i g) (i_op0 i).

Section Top.
Context `{FpuOps}.
Variable c : cenv.
Variable cfg : xcfg.
Notation PC i := (trunc 64 (i_start i + i_len i)).

Lemma sadv_ctx : forall kc i s g, s_ctx c cfg kc i s g ->
  zctx c kc (PC i) (sadv i g) /\ ZAt (PC i) (sadv i g) (Dsl.s_var s) (s_ret s) (with_pc s (PcConst (PC i))).
Proof.
  intros kc i s g [HA GB [R Q] SH O0 O1 KC IP]. split; [split|].
  - unfold sadv. cbn [set_x z_x set_ip y_ip]. rewrite IP, addr_pc_base_trunc, addr_pc_base_add. reflexivity.
  - exact KC.
  - split; [|repeat split]. split; [destruct R; split; assumption|exact Q].
Qed.
Lemma arun_pc : forall kc i s, arun c s (lift_sinst c cfg kc i) = arun c (with_pc s (PcConst (PC i))) (lift_sse c cfg kc i).
Proof. reflexivity. Qed.
Lemma sse_step : forall rel kc i s g g', fpu_std rel -> s_ctx c cfg kc i s g -> i_mn i <> S_PSHUFHW -> s_natural i g -> cvt_ok i (sadv i g) ->
  s_spec rel i g = Some g' -> s_lifts c cfg kc i s g'.
Proof.
  intros rel kc i s g g' FS C NP [N1 N0] CV E. destruct (sadv_ctx kc i s g C) as [ZC AT]. destruct C as [HA GB R SH O0 O1 KC IP].
  unfold s_lifts. rewrite arun_pc.
  destruct (sse_body rel FS c cfg HA GB kc (PC i) i (sadv i g) g' (Dsl.s_var s) (s_ret s) ZC) with (s := with_pc s (PcConst (PC i))) as (s' & R1 & D1 & D2 & D3).
  - repeat (split; [assumption|]). assumption.
  - exact E.
  - exact AT.
  - exists s'. repeat (split; [assumption|]). assumption.
Qed.

(** ** Failing accesses *)
Section Fail.
Hypothesis HA : c_arch c = X86_64.
Hypothesis GB : gbase_ok c.
Variable kc : areg -> konst.
Variable pc : Z.
Notation zctx := (zctx c kc pc). Notation ZAt := (ZAt pc).
(** Every run is undefined. *)
Definition Zu (g : zst) (vs : nat -> option rv) (rt : bool) (l : list astm) : Prop := forall s, ZAt g vs rt s -> arun c s l = UB.
Lemma Zu_reg : forall g vs rt x w n f a l, okr n = true -> okf (facet_Resolve f w) = true ->
  (forall vs, Zu g vs rt l) -> Zu g vs rt (qload c cfg kc x (QX w n) f a ++ l).
Proof.
  intros g vs rt x w n f a l N O K s (R & P & VS & RT). unfold qload. cbn [app q_bits arun aok bind run1]. unfold ev, rG. cbn [eval leaf_val].
  rewrite (proj1 (proj2 R n (okr_range _ N))), get_okf by exact O. cbn [bind]. eapply K. split; [apply zrel_var; exact R|]. auto.
Qed.
Lemma Zu_load : forall g vs rt x w m f l, zctx g -> wf_mem m = true -> good_mem cfg (m_seg m) m = true ->
  ea (z_x g) m mod (tsize (facet_type (facet_Resolve f w)) / 8) <> 0 -> Zu g vs rt (qload c cfg kc x (QM w m) f AMax ++ l).
Proof.
  intros g vs rt x w m f l C W G M s A. unfold qload. cbn [app q_bits arun aok aset].
  rewrite (ev_sAddr c cfg GB kc pc s g m vs rt A C W G). cbn [bind].
  destruct (Z.eqb_spec (ea (z_x g) m mod (tsize (facet_type (facet_Resolve f w)) / 8)) 0); [contradiction|reflexivity].
Qed.
Lemma Zu_store : forall g vs rt w m t e l, zctx g -> wf_mem m = true -> good_mem cfg (m_seg m) m = true ->
  ea (z_x g) m mod (tsize t / 8) <> 0 -> Zu g vs rt (qstore c cfg kc (QM w m) t e AImp ++ l).
Proof.
  intros g vs rt w m t e l C W G M s A. unfold qstore. cbn [app arun aok aset].
  rewrite (ev_sAddr c cfg GB kc pc s g m vs rt A C W G). cbn [bind].
  destruct (Z.eqb_spec (ea (z_x g) m mod (tsize t / 8)) 0); [contradiction|reflexivity].
Qed.
Lemma over_load_ub : forall rel i g g' vs rt w m, zctx g -> s_shape i = true -> good_q cfg (i_op1 i) = true -> i_op1 i = QM w m ->
  ea (z_x g) m mod over_src (i_mn i) <> 0 -> s_isa rel i g = Some g' -> Zu g vs rt (lift_sse c cfg kc i).
Proof.
  intros rel i g g' vs rt w m C SH GQ I1 AL E. rewrite I1 in GQ. cbn [good_q] in GQ.
  assert (NT : over_src (i_mn i) <> 1) by (intros X; rewrite X, Z.mod_1_r in AL; congruence).
  assert (CP : comis_ty (i_mn i) = None) by (destruct (i_mn i); try reflexivity; contradiction NT; reflexivity).
  unfold s_shape in SH. apply andb_true_iff in SH. destruct SH as [SH IM]. rewrite I1 in SH.
  assert (S0 : exists w0 d, i_op0 i = QX w0 d /\ okr d = true /\ w = rm_bits (i_mn i) /\ wf_mem m = true).
  { destruct (i_mn i); try (exfalso; apply NT; reflexivity); cbn [rm_bits Z.ltb Z.compare Pos.compare Pos.compare_cont] in *;
      apply andb_true_iff in SH; destruct SH as [S0 S1]; destruct (i_op0 i) as [|w0 d|w0 d|w0 d|w0 d]; try discriminate S0;
      cbn [s_okx s_okm orb] in *; apply andb_true_iff in S1; destruct S1; exists w0, d; repeat split; auto; lia. }
  destruct S0 as (w0 & d & I0 & N & -> & WF).
  unfold s_isa in E. match type of E with (if ?q then _ else _) = _ => destruct q; [|discriminate E] end. rewrite CP, I0 in E.
  assert (IMM : forall r, (if U 8 (q_imm (i_op2 i)) <? 8 then Some r else None) = Some (z_q g' d) -> has_imm (i_mn i) = true -> exists p, X86Sse.cmp_pred (q_imm (i_op2 i)) = Some p).
  { intros r X HI. rewrite HI in IM. cbn [negb orb] in IM. destruct (i_op2 i); try discriminate IM. cbn [s_oki q_imm] in *.
    apply cmp_pred_some. destruct (U 8 v <? 8) eqn:L8; [|discriminate X]. unfold U in L8. change (2 ^ 8) with 256 in L8. lia. }
  assert (QD : forall r, option_map (set_q g d) (Some r) = Some g' -> r = z_q g' d).
  { intros r X. injection X as <-. cbn [set_q z_q]. rewrite Z.eqb_refl. reflexivity. }
  destruct (i_mn i) eqn:MN; try (exfalso; apply NT; reflexivity); unfold lift_sse; rewrite MN; cbn [rm_bits] in *.
  all: first [
    unfold LiftSseMinmax; rewrite I0, I1; apply Zu_reg; [exact N|reflexivity|]; intros; apply Zu_load; [exact C|exact WF|exact GQ|exact AL]
  | unfold LiftSseMovdup; rewrite I1; apply Zu_load; [exact C|exact WF|exact GQ|exact AL]
  | cbn [sse_fn] in E; unfold fcmps in E; destruct (U 8 (q_imm (i_op2 i)) <? 8); [|discriminate E]; apply QD in E;
    destruct (IMM _ (f_equal Some E) eq_refl) as (p & P);
    unfold LiftSseCmp; rewrite P, I0, I1; apply Zu_reg; [exact N|reflexivity|]; intros; apply Zu_load; [exact C|exact WF|exact GQ|exact AL] ].
Qed.
Lemma over_store_ub : forall i g vs rt w m, zctx g -> s_shape i = true -> good_q cfg (i_op0 i) = true -> i_op0 i = QM w m ->
  ea (z_x g) m mod over_dst (i_mn i) <> 0 -> Zu g vs rt (lift_sse c cfg kc i).
Proof.
  intros i g vs rt w m C SH GQ I0 AL. rewrite I0 in GQ. cbn [good_q] in GQ.
  assert (NT : over_dst (i_mn i) <> 1) by (intros X; rewrite X, Z.mod_1_r in AL; congruence).
  unfold s_shape in SH. apply andb_true_iff in SH. destruct SH as [SH _]. rewrite I0 in SH.
  assert (S0 : exists w1 n, i_op1 i = QX w1 n /\ okr n = true /\ wf_mem m = true).
  { destruct (i_mn i); try (exfalso; apply NT; reflexivity); cbn [s_okx s_okm orb andb] in SH;
      apply andb_true_iff in SH; destruct SH as [S0 S1]; destruct (i_op1 i) as [|w1 n|w1 n|w1 n|w1 n]; try discriminate S1;
      apply andb_true_iff in S0; destruct S0; exists w1, n; auto. }
  destruct S0 as (w1 & n & I1 & N & WF).
  destruct (i_mn i) eqn:MN; try (exfalso; apply NT; reflexivity); unfold lift_sse; rewrite MN; cbv iota;
    unfold LiftSseMovScalar, LiftSseMovlp, LiftSseMovhps, LiftSseMovhpd; rewrite I0, I1, ?MN; cbn [q_ismem q_isreg andb app];
    (apply Zu_reg; [exact N|reflexivity|]); intros; rewrite <- (app_nil_r (qstore _ _ _ _ _ _ _)); apply Zu_store; assumption.
Qed.
End Fail.
Lemma sse_step_ub : forall rel kc i s g g', s_ctx c cfg kc i s g -> ~ s_natural i g -> s_spec rel i g = Some g' ->
  arun c s (lift_sinst c cfg kc i) = UB.
Proof.
  intros rel kc i s g g' C N E. destruct (sadv_ctx kc i s g C) as [ZC AT]. destruct C as [HA GB R SH O0 O1 KC IP]. rewrite arun_pc. revert AT.
  unfold s_natural in N.
  assert (DD : (exists w m, i_op1 i = QM w m /\ ea (z_x (sadv i g)) m mod over_src (i_mn i) <> 0) \/
               (exists w m, i_op0 i = QM w m /\ ea (z_x (sadv i g)) m mod over_dst (i_mn i) <> 0)).
  { destruct (i_op1 i) as [|w n|w n|w m|w n] eqn:I1, (i_op0 i) as [|w' n'|w' n'|w' m'|w' n'] eqn:I0; cbn [mem_al] in N; try (exfalso; apply N; split; exact I);
    try (right; do 2 eexists; split; [reflexivity|]; intros X; apply N; split; [exact I|exact X]);
    try (left; do 2 eexists; split; [reflexivity|]; intros X; apply N; split; [exact X|exact I]).
    destruct (Z.eq_dec (ea (z_x (sadv i g)) m mod over_src (i_mn i)) 0) as [Q1|Q1]; [|left; eauto].
    destruct (Z.eq_dec (ea (z_x (sadv i g)) m' mod over_dst (i_mn i)) 0) as [Q2|Q2]; [|right; eauto]. exfalso. apply N. auto. }
  destruct DD as [(w & m & I1 & AL)|(w & m & I0 & AL)].
  - apply (over_load_ub GB kc (PC i) rel i (sadv i g) g' (Dsl.s_var s) (s_ret s) w m ZC SH O1 I1 AL E).
  - apply (over_store_ub GB kc (PC i) i (sadv i g) (Dsl.s_var s) (s_ret s) w m ZC SH O0 I0 AL).
Qed.

(** ** Sequences *)
Record sitem := SItem { si_kc : areg -> konst; si_i : sinst }.
Definition lift_sitems (l : list sitem) : list astm := flat_map (fun t => lift_sinst c cfg (si_kc t) (si_i t)) l.
Inductive sblock (rel : ty -> Z -> Z -> option comparison) : zst -> list sitem -> zst -> Prop :=
| sb_nil : forall g, sblock rel g [] g
| sb_cons : forall g t g1 l g', s_shape (si_i t) = true -> good_q cfg (i_op0 (si_i t)) = true -> good_q cfg (i_op1 (si_i t)) = true ->
    xkc_sound (si_kc t) (z_x g) -> y_ip (z_x g) = addr_pc_base c (i_start (si_i t)) ->
    i_mn (si_i t) <> S_PSHUFHW -> s_natural (si_i t) g -> cvt_ok (si_i t) (sadv (si_i t) g) ->
    s_spec rel (si_i t) g = Some g1 -> sblock rel g1 l g' -> sblock rel g (t :: l) g'.
Lemma arun_app : forall l1 l2 s, arun c s (l1 ++ l2) = do s' <- arun c s l1; arun c s' l2.
Proof.
  induction l1 as [|[al x] l1 IH]; intros l2 s; [reflexivity|]. cbn [app arun]. destruct (aok c s al x) as [[|]| |]; cbn [bind]; try reflexivity.
  destruct (run1 c s x); cbn [bind]; [apply IH|reflexivity|reflexivity].
Qed.
Lemma sse_block : forall rel, fpu_std rel -> c_arch c = X86_64 -> gbase_ok c -> forall g l g', sblock rel g l g' -> l <> [] -> forall s, zrel s g ->
  exists s', arun c s (lift_sitems l) = Ok s' /\ zrel s' g' /\ pc_value c (s_pc s') 0 = Ok (V (TInt 64) (y_ip (z_x g'))) /\ s_ret s' = s_ret s.
Proof.
  intros rel FS HA GB g l g' B. induction B as [|g t g1 l g' SH O0 O1 KC IP NP NA CV E B IH]; intros NE s R; [congruence|].
  destruct (sse_step rel (si_kc t) (si_i t) s g g1 FS (SCtx _ _ _ _ _ _ HA GB R SH O0 O1 KC IP) NP NA CV E) as (s1 & R1 & Z1 & P1 & T1).
  cbn [lift_sitems flat_map]. rewrite arun_app, R1. cbn [bind]. destruct l as [|t' l].
  - inversion B; subst. exists s1. repeat (split; [assumption||reflexivity|]). assumption.
  - destruct (IH ltac:(discriminate) s1 Z1) as (s' & R2 & Z2 & P2 & T2). exists s'. rewrite <- T1. auto.
Qed.
End Top.
