(** Property C75: the call function set or removed between decoding and lifting. *)

From Coq Require Import ZArith Lia ZifyBool List Bool Arith.
From Verif Require Import Bits IR Facet Dsl Layout Decode DecodeOk DecodeRv LiftEdge Rv64 Rv64Mem Rv64Spec Rv64Sim Rv64Step LiftFn LiftSim LiftRv Rv64Ex Prop_Lift Lower A64 LiftA64 Prop_LiftA64.
Import ListNotations.
Open Scope Z_scope.

(** Set after decoding: the counts still bound the edges, as the calls were marked to
    leave the function (RV64; the simulation of C41 holds for any such change). The
    exception of C16 remains. *)
Theorem call_function_added_partial : forall c cfg kc ds a0 bs t,
  decoded_all rvinst r_len rv_cls false ds -> has_call cfg = true ->
  (forall d, In d (f_ins _ ds) -> r_start (d_i _ d) = d_start _ d /\ rv_dec (d_i _ d) /\ ~ odd_jal (d_i _ d)) ->
  rlift c cfg kc true (f_ins _ ds) = LFn (a0, bs) -> t <> 0 ->
  (block_edges rvinst t bs <= e_preds (f_map _ ds t))%nat.
Proof.
  intros c cfg kc ds a0 bs t D HC W L T. rewrite (preds_exact _ _ _ _ _ D). unfold real.
  apply (lift_edges rvinst (rv_lf c cfg kc) t _ _ a0 bs); [|exact L].
  intros n d ok code I0 LF. destruct (W d I0) as (W1 & W2 & W3). pose proof (decoded_inh _ _ _ _ _ D) as FI. rewrite Forall_forall in FI. specialize (FI d I0).
  set (d' := DI rvinst (d_i _ d) (d_start _ d) (d_new _ d) false (d_fall _ d) (d_tgt _ d)).
  assert (I' : d_inh _ d' = match fst (rv_cls (d_i _ d')) with KCall => negb (has_call cfg) | _ => false end) by (rewrite HC; cbn; destruct (fst (rv_cls (d_i _ d))); reflexivity).
  destruct (rv_hit c cfg (kc n) d' ok code t T W2 W1 (fun _ => W3) I' LF) as [SP HI]. split; [exact SP|].
  intro EO. unfold end_of in EO, HI. destruct (cret code); [discriminate EO|]. destruct (d_inh _ d) eqn:IN; [discriminate EO|]. specialize (HI eq_refl).
  assert (R : real1 rvinst r_len rv_cls (has_call cfg) t d' = real1 rvinst r_len rv_cls false t d).
  { unfold real1, d_to, d_kind, d_end, d'. cbn [d_i d_start]. rewrite HC. destruct (fst (rv_cls (d_i _ d))) eqn:K; try reflexivity. discriminate FI. }
  rewrite <- R. exact HI.
Qed.
Print Assumptions call_function_added_partial.
(** AArch64: without exception. *)
Theorem a64_call_function_added : forall cfg unk ds a0 bs t,
  decoded_all ainst a_len (a_cls unk) false ds -> a_has_call cfg = true ->
  (forall d, In d (f_ins _ ds) -> a_start (d_i _ d) = d_start _ d) ->
  alift cfg true (f_ins _ ds) = LFn (a0, bs) -> t <> 0 ->
  (block_edges ainst t bs <= e_preds (f_map _ ds t))%nat.
Proof.
  intros cfg unk ds a0 bs t D HC W L T. rewrite (preds_exact _ _ _ _ _ D). unfold real.
  apply (lift_edges ainst (a_lf cfg) t _ _ a0 bs); [|exact L].
  intros n d ok code I0 LF. pose proof (decoded_inh _ _ _ _ _ D) as FI. rewrite Forall_forall in FI. specialize (FI d I0).
  set (d' := DI ainst (d_i _ d) (d_start _ d) (d_new _ d) false (d_fall _ d) (d_tgt _ d)).
  assert (I' : d_inh _ d' = match fst (a_cls unk (d_i _ d')) with KCall => negb (a_has_call cfg) | _ => false end) by (rewrite HC; cbn [d' d_inh d_i negb]; destruct (fst (a_cls unk (d_i _ d))); reflexivity).
  destruct (a64_hit cfg unk d' ok code t T (W d I0) I' LF) as [SP HI]. split; [exact SP|].
  intro EO. unfold end_of in EO, HI. destruct (cret code); [discriminate EO|]. destruct (d_inh _ d) eqn:IN; [discriminate EO|]. specialize (HI eq_refl).
  assert (R : real1 ainst a_len (a_cls unk) (a_has_call cfg) t d' = real1 ainst a_len (a_cls unk) false t d).
  { unfold real1, d_to, d_kind, d_end, d'. cbn [d_i d_start]. rewrite HC. destruct (fst (a_cls unk (d_i _ d))) eqn:K; try reflexivity. discriminate FI. }
  rewrite <- R. exact HI.
Qed.
Print Assumptions a64_call_function_added.
(** Refuted for a call function removed after decoding: the call becomes a branch that was
    not counted. Here a block with two predecessors is counted with one, which
    violates an assertion ([lower] gives no function). *)
Definition p_rm : list rvinst :=
  [insn R_BEQ 128 5 0 0x100 0x1000; insn R_JAL 1 128 128 0xfc 0x1004; insn R_ECALL 128 128 128 0 0x1008; insn R_ECALL 128 128 128 0 0x1100].
Definition ds_rm (cf : bool) : dst rvinst := match rdecode (prog p_rm) MAll cf 20 (dst0 _) 0x1000 with Some (Some s) => s | _ => dst0 _ end.
Definition bs_rm (cfg : lcfg) (cf : bool) : list (lblock rvinst) :=
  match rlift c_ex cfg (fun _ => kc_ex) true (f_ins _ (ds_rm cf)) with LFn (_, bs) => bs | _ => [] end.
Definition lowers (cfg : lcfg) (cf : bool) : bool :=
  match lower c_ex rvinst (ds_rm cf) 0x1000 (fun _ _ => None) (fun _ => true) (bs_rm cfg cf) with Some _ => true | None => false end.
Theorem call_function_removed_refuted : exists c cfg kc ds a0 bs t, decoded_all rvinst r_len rv_cls true ds /\ has_call cfg = false /\
  (forall d, In d (f_ins _ ds) -> r_start (d_i _ d) = d_start _ d /\ rv_dec (d_i _ d) /\ ~ odd_jal (d_i _ d)) /\
  rlift c cfg kc true (f_ins _ ds) = LFn (a0, bs) /\ t <> 0 /\ t <> a0 /\
  block_edges rvinst t bs = 2%nat /\ e_preds (f_map _ ds t) = 1%nat /\
  lower c rvinst ds a0 (fun _ _ => None) (fun _ => true) bs = None.
Proof.
  exists c_ex, cfg_ex, (fun _ => kc_ex), (ds_rm true), 0x1000, (bs_rm cfg_ex true), 0x1100. split.
  { eapply (decoded_all1 _ _ _ _ _ (prog p_rm) 20 0x1000); [apply decoded_all0|]. vm_compute. reflexivity. }
  split; [reflexivity|]. split.
  { intros d I0. vm_compute in I0. repeat (destruct I0 as [<-|I0]; [split; [reflexivity|]; split; [unfold rv_dec, jal_dec; cbn; intuition congruence|intros (A & _ & C); first [discriminate A|discriminate C]]|]). destruct I0. }
  split; [reflexivity|]. split; [discriminate|]. split; [discriminate|]. split; [vm_compute; reflexivity|]. split; vm_compute; reflexivity.
Qed.
Print Assumptions call_function_removed_refuted.
(** The same program is lifted if the option stays or if it is set after decoding. *)
Example call_function_nv : lowers cfg_ex true = false /\ lowers cfg_ex false = true /\ lowers cfg_call true = true /\ lowers cfg_call false = true /\
  decoded_all rvinst r_len rv_cls false (ds_rm false) /\ block_edges rvinst 0x1100 (bs_rm cfg_call false) = 1%nat.
Proof.
  split; [vm_compute; reflexivity|]. split; [vm_compute; reflexivity|]. split; [vm_compute; reflexivity|]. split; [vm_compute; reflexivity|]. split.
  - eapply (decoded_all1 _ _ _ _ _ (prog p_rm) 20 0x1000); [apply decoded_all0|]. vm_compute. reflexivity.
  - vm_compute. reflexivity.
Qed.
Definition ads_no : dst ainst := match decode ainst a_len (a_cls aunk) (aprog ap_loop) MAll false 20 (dst0 _) 0x1000 with Some (Some s) => s | _ => dst0 _ end.
Example a64_call_function_nv : decoded_all ainst a_len (a_cls aunk) false ads_no /\ length (f_ins _ ads_no) = 2%nat /\ a_has_call acfg_call = true /\
  match alift acfg_call true (f_ins _ ads_no) with LFn (a, bs) => a = 0x1000 /\ length bs = 1%nat | _ => False end.
Proof.
  split; [eapply (decoded_all1 _ _ _ _ _ (aprog ap_loop) 20 0x1000); [apply decoded_all0|]; vm_compute; reflexivity|]. vm_compute. repeat split.
Qed.

From Verif Require Import X86 X86Sse LiftX86 Prop_LiftX86.
(** x86-64: the exception of C16 (SYSCALL without implementation) remains. *)
Theorem x86_call_function_added_partial : forall c cfg kc kcp kd unk ds a0 bs t,
  decoded_all zinst z_len (x_cls unk) false ds -> x_has_call cfg = true ->
  (forall d, In d (f_ins _ ds) -> z_start (d_i _ d) = d_start _ d) ->
  (forall d i, In d (f_ins _ ds) -> d_i _ d = ZG i -> x_mn i = X_SYSCALL -> xl_syscall cfg <> None) ->
  lift zinst (x_lf c cfg kc kcp kd) true (f_ins _ ds) = LFn (a0, bs) -> t <> 0 ->
  (block_edges zinst t bs <= e_preds (f_map _ ds t))%nat.
Proof.
  intros c cfg kc kcp kd unk ds a0 bs t D HC W SY L T. rewrite (preds_exact _ _ _ _ _ D). unfold real.
  apply (lift_edges zinst (x_lf c cfg kc kcp kd) t _ _ a0 bs); [|exact L].
  intros n d ok code I0 LF. pose proof (decoded_inh _ _ _ _ _ D) as FI. rewrite Forall_forall in FI. specialize (FI d I0).
  set (d' := DI zinst (d_i _ d) (d_start _ d) (d_new _ d) false (d_fall _ d) (d_tgt _ d)).
  assert (I' : d_inh _ d' = match fst (x_cls unk (d_i _ d')) with KCall => negb (x_has_call cfg) | _ => false end) by (rewrite HC; cbn [d' d_inh d_i negb]; destruct (fst (x_cls unk (d_i _ d))); reflexivity).
  destruct (z_hit c cfg kc kcp kd unk n d' ok code t T (W d I0) I' (fun i => SY d i I0) LF) as [SP HI]. split; [exact SP|].
  intro EO. unfold end_of in EO, HI. destruct (cret code); [discriminate EO|]. destruct (d_inh _ d) eqn:IN; [discriminate EO|]. specialize (HI eq_refl).
  assert (R : real1 zinst z_len (x_cls unk) (x_has_call cfg) t d' = real1 zinst z_len (x_cls unk) false t d).
  { unfold real1, d_to, d_kind, d_end, d'. cbn [d_i d_start]. rewrite HC. destruct (fst (x_cls unk (d_i _ d))) eqn:K; try reflexivity. discriminate FI. }
  rewrite <- R. exact HI.
Qed.
Print Assumptions x86_call_function_added_partial.
Example x86_call_function_nv : decoded_all zinst z_len (x_cls xunk) false (xds xp_loop false 0x1000) /\ length (f_ins _ (xds xp_loop false 0x1000)) = 2%nat /\ x_has_call xcfg_call = true /\
  match lift zinst (x_lf xc_call xcfg_call kz kz (fun _ => DNone)) true (f_ins _ (xds xp_loop false 0x1000)) with LFn (a, bs) => a = 0x1000 /\ length bs = 1%nat | _ => False end.
Proof.
  split; [eapply (decoded_all1 _ _ _ _ _ (xprog xp_loop) 20 0x1000); [apply decoded_all0|]; vm_compute; reflexivity|]. vm_compute. repeat split.
Qed.
