(** A lifted function simulates guest execution, given that the code for single
    instructions does; for any architecture. *)

From Coq Require Import ZArith Lia ZifyBool List Bool Arith.
From Verif Require Import Bits IR Facet Dsl Decode DecodeOk LiftFn.
Import ListNotations.
Open Scope Z_scope.

(** Executing [k] guest steps. *)
Inductive gsteps {G : Type} (gstep : G -> G -> Prop) : nat -> G -> G -> Prop :=
| gs0 : forall g, gsteps gstep 0 g g
| gsS : forall k g g1 g2, gsteps gstep k g g1 -> gstep g1 g2 -> gsteps gstep (S k) g g2.

(** regfile.cc:617-633: the address a block branches to is that of the PC. *)
Lemma branch_target : forall c p pc, pc_value c p 0 = Ok (V (TInt 64) pc) ->
  exists k a1 a2 t, pc_branch c p = Ok (k, a1, a2) /\ target k a1 a2 = Ok t /\ (t = 0 \/ addr_pc_base c t = pc).
Proof.
  intros c p pc E. destruct p as [v|a|k a1 a2|v a]; cbn [pc_value pc_branch] in *.
  - eexists _, _, _, _. split; [reflexivity|]. split; [reflexivity|]. left. reflexivity.
  - injection E as E. rewrite Z.add_0_r in E. eexists _, _, _, _. split; [reflexivity|]. split; [reflexivity|]. right. exact E.
  - unfold sel_sem in E. rewrite !Z.add_0_r in E. exists k, a1, a2.
    destruct k as [t z|t]; cbn [ty_of ty_eqb] in E; change (64 =? 64) with true in E; cbv iota in E.
    + exists (if z =? 0 then a2 else a1). split; [reflexivity|]. split; [reflexivity|]. right.
      destruct t as [w| | | |n [u| | | |]]; try discriminate; try (repeat (destruct w as [|w|w]; try discriminate)); try (repeat (destruct u as [|u|u]; try discriminate)).
      destruct (z =? 0); injection E as E; exact E.
    + exfalso. destruct t as [w| | | |n [u| | | |]]; try discriminate; try (repeat (destruct w as [|w|w]; try discriminate)); try (repeat (destruct u as [|u|u]; try discriminate)).
  - change (0 =? 0) with true in E. injection E as ->. cbn [cmp_sem]. unfold cmp_sem. cbn [ty_of ty_eqb].
    eexists _, _, _, _. split; [reflexivity|]. split; [reflexivity|].
    cbn [icmp_sem]. destruct (Z.eqb_spec pc (addr_pc_base c a)) as [Q|Q]; cbn [b2z]; [right; symmetry; exact Q|left; reflexivity].
Qed.

Section Sim.
Context {LA : lang}.
Variable Ins : Type.
Variable ilen : Ins -> Z.
Variable icls : Ins -> kind * Z.
Variable lf : nat -> Ins -> option (bool * Code LA).
Context `{FpuOps}.
Variable c : cenv.
Variable ds : dst Ins.
(** Guest states, their PC, the guest's step relation, and what it means that the
    lifted code's state (registers and memory) holds a guest state. *)
Variable G : Type.
Variable gpc : G -> Z.
Variable gstep : G -> G -> Prop.
Variable R : st -> G -> Prop.

Definition pc_is (s : st) (g : G) : Prop := pc_value c (s_pc s) 0 = Ok (V (TInt 64) (gpc g)).

(** The code for one instruction does one guest step, or, if not supported, leaves
    the state alone with an opaque PC value. *)
Definition one_ok (i : nat) (d : dinst Ins) (s : st) (g : G) : Prop :=
  forall ok code, lf i (d_i _ d) = Some (ok, code) ->
  exists s', crun c s code = Ok s' /\
    if ok then exists g', gstep g g' /\ R s' g' /\ pc_is s' g' /\
                 (d_kind _ icls d = KOther -> gpc g' = addr_pc_base c (d_end _ ilen d))
    else R s' g /\ pc_is s' g /\ exists v, s_pc s' = PcVal v.

Variable a0 : Z.
Variable bs : list (lblock Ins).
Hypothesis V : inv Ins ilen icls ds.
Hypothesis L : lift Ins lf true (f_ins _ ds) = LFn (a0, bs).

Definition enter (s : st) : res (conf Ins) := goto Ins ds bs a0 s.

Lemma enter_ok : forall s, exists b i d, enter s = Ok (CRun _ (lb_code _ b) (lb_end _ b) s) /\
  nth_error (f_ins _ ds) i = Some d /\ d_start _ d = a0 /\ d_new _ d = true /\ bcode Ins lf (f_ins _ ds) i (lb_code _ b) (lb_end _ b).
Proof.
  intros s. destruct (lift_blocks _ _ _ _ _ L) as ((d & l & E & SA & NZ & NW) & _).
  assert (N0 : nth_error (f_ins _ ds) 0 = Some d) by (rewrite E; reflexivity).
  assert (RS : resolve Ins ds a0 = true).
  { unfold resolve. destruct (v_ins _ _ _ _ V 0%nat d N0) as [D I0]. rewrite SA in *.
    destruct (Z.eqb_spec a0 0); [contradiction|]. rewrite D, I0, N0. exact NW. }
  destruct (block_at_resolve _ _ _ _ _ _ _ V L a0 RS) as (b & i & d' & B & N & X).
  exists b, i, d'. split; [|split; assumption]. unfold enter, goto. rewrite RS, B. reflexivity.
Qed.

(** The code of the instruction at position [i] is about to run in [s]. *)
Definition visits (s0 : st) (i : nat) (s : st) : Prop :=
  exists n x d code segs e, enter s0 = Ok x /\ lsteps Ins c ds bs n x = Ok (CRun _ ((i, d, code) :: segs) e s).

(** Everything executed is code of some block. *)
Lemma lsteps_snoc : forall n x, lsteps Ins c ds bs (S n) x = do y <- lsteps Ins c ds bs n x; lstep Ins c ds bs y.
Proof.
  induction n; intros x.
  - cbn [lsteps bind]. destruct (lstep Ins c ds bs x); reflexivity.
  - change (lsteps Ins c ds bs (S (S n)) x) with (do y <- lstep Ins c ds bs x; lsteps Ins c ds bs (S n) y).
    cbn [lsteps]. destruct (lstep Ins c ds bs x) as [y| |]; cbn [bind]; [apply IHn|reflexivity|reflexivity].
Qed.
Lemma goto_code : forall a s segs e s', goto Ins ds bs a s = Ok (CRun _ segs e s') -> exists i, bcode Ins lf (f_ins _ ds) i segs e.
Proof.
  intros a s segs e s' E. unfold goto in E. destruct (resolve Ins ds a) eqn:RA; [|discriminate].
  destruct (block_at_resolve _ _ _ _ _ _ _ V L a RA) as (b & i & d & B & _ & _ & _ & BC). rewrite B in E. injection E as <- <- _. eauto.
Qed.
Lemma reach_code : forall n s x0, enter s = Ok x0 -> forall segs e s', lsteps Ins c ds bs n x0 = Ok (CRun _ segs e s') ->
  segs = [] \/ exists i, bcode Ins lf (f_ins _ ds) i segs e.
Proof.
  induction n as [|n IH]; intros s x0 E segs e s' Q.
  - injection Q as ->. right. eapply goto_code, E.
  - rewrite lsteps_snoc in Q. destruct (lsteps Ins c ds bs n x0) as [x| |] eqn:LS; try discriminate. cbn [bind] in Q.
    destruct x as [sg e1 s1|s1]; [|discriminate]. specialize (IH s x0 E sg e1 s1 LS). destruct sg as [|[[i d] code] sg].
    + destruct e1; cbn [lstep] in Q; try discriminate. right.
      destruct (pc_branch c (s_pc s1)) as [[[k a1] a2]| |]; cbn [bind] in Q; try discriminate.
      destruct (target k a1 a2); cbn [bind] in Q; try discriminate. eapply goto_code, Q.
    + destruct IH as [X|[j BC]]; [discriminate|]. cbn [lstep] in Q. destruct (crun c s1 code); cbn [bind] in Q; try discriminate.
      injection Q as -> -> _. inversion BC; subst; eauto.
Qed.

Variable s0 : st.
Variable g0 : G.
Hypothesis R0 : R s0 g0.
Hypothesis P0 : gpc g0 = addr_pc_base c a0.
(** Each instruction is correct in every state in which it is executed. *)
Hypothesis ONE : forall i d s g k, visits s0 i s -> gsteps gstep k g0 g -> nth_error (f_ins _ ds) i = Some d ->
  R s g -> gpc g = addr_pc_base c (d_start _ d) -> one_ok i d s g.

Definition sim_inv (n : nat) (x : conf Ins) : Prop :=
  match x with
  | COut _ s => exists k g, gsteps gstep k g0 g /\ R s g /\ pc_is s g
  | CRun _ segs e s => exists k g, gsteps gstep k g0 g /\ R s g /\
    ((exists i d, bcode Ins lf (f_ins _ ds) i segs e /\ nth_error (f_ins _ ds) i = Some d /\ gpc g = addr_pc_base c (d_start _ d) /\ (n <= 2 * k)%nat) \/
     (segs = [] /\ pc_is s g /\ (n + 1 <= 2 * k)%nat) \/
     (segs = [] /\ pc_is s g /\ (exists v, s_pc s = PcVal v) /\ (n <= 2 * k + 1)%nat))
  end.

Lemma sim_steps : forall n x0, enter s0 = Ok x0 -> exists x, lsteps Ins c ds bs n x0 = Ok x /\ sim_inv n x.
Proof.
  intros n x0 E0. induction n as [|n IH].
  - exists x0. split; [reflexivity|]. destruct (enter_ok s0) as (b & i & d & E & N & SA & NW & BC). rewrite E in E0. injection E0 as <-.
    exists 0%nat, g0. split; [constructor|]. split; [assumption|]. left. exists i, d. rewrite SA. auto.
  - destruct IH as (x & EX & IN). rewrite lsteps_snoc, EX. cbn [bind].
    destruct x as [segs e s|s]; [|exists (COut _ s); split; [reflexivity|exact IN]].
    destruct IN as (k & g & GS & RS & [(i & d & BC & N & PC & CN)|[(-> & PC & CN)|(-> & PC & (v & PV) & CN)]]).
    + assert (VI : forall code sg, segs = (i, d, code) :: sg -> visits s0 i s).
      { intros code sg ->. exists n, x0, d, code, sg, e. auto. }
      inversion BC as [i' d' code N' LF X1 X2 X3|i' d' code N' LF NX X1 X2 X3|i' d' code d2 sg e' N' LF HR NX NN BC' X1 X2 X3]; subst i'; subst segs; subst e;
      rewrite N in N'; injection N' as <-;
      destruct (ONE i d s g k (VI _ _ eq_refl) GS N RS PC _ _ LF) as (s' & RN & X); cbn [lstep]; rewrite RN; cbn [bind];
      eexists; (split; [reflexivity|]).
      * destruct X as (X1 & X2 & X3). exists k, g. split; [assumption|]. split; [assumption|]. right. right.
        split; [reflexivity|]. split; [assumption|]. split; [assumption|lia].
      * destruct X as (g' & X1 & X2 & X3 & X4). exists (S k), g'. split; [econstructor; eassumption|]. split; [assumption|]. right. left.
        split; [reflexivity|]. split; [assumption|lia].
      * destruct X as (g' & X1 & X2 & X3 & X4). exists (S k), g'. split; [econstructor; eassumption|]. split; [assumption|]. left.
        exists (S i), d2. split; [assumption|]. split; [assumption|]. split; [|lia].
        destruct (v_run _ _ _ _ V (S i) d2 NX NN) as (j & d3 & Q & N3 & EN & KO & _). injection Q as <-. rewrite N in N3. injection N3 as <-.
        rewrite <- EN. apply X4. exact KO.
    + destruct e; cbn [lstep]; [eexists; split; [reflexivity|]; exists k, g; auto..|].
      destruct (branch_target c (s_pc s) (gpc g) PC) as (kk & a1 & a2 & t & B1 & B2 & B3). rewrite B1. cbn [bind]. rewrite B2. cbn [bind].
      unfold goto. destruct (resolve Ins ds t) eqn:RT; [|eexists; split; [reflexivity|]; exists k, g; auto].
      destruct (block_at_resolve _ _ _ _ _ _ _ V L t RT) as (b & i & d & B & N & SA & NW & BC). rewrite B.
      eexists. split; [reflexivity|]. exists k, g. split; [assumption|]. split; [assumption|]. left. exists i, d.
      split; [assumption|]. split; [assumption|]. rewrite SA. destruct B3 as [->|B3]; [discriminate|]. split; [symmetry; assumption|lia].
    + destruct e; cbn [lstep]; [eexists; split; [reflexivity|]; exists k, g; auto..|].
      rewrite PV. cbn [pc_branch bind target]. change (1 =? 0) with false. cbv iota. unfold goto, resolve. change (0 =? 0) with true. cbv iota.
      eexists; split; [reflexivity|]. exists k, g. auto.
Qed.

(** The lifted function never gets stuck; when it is left, registers, memory and PC
    are those after some number of guest steps; as long as it runs, the guest
    keeps making steps. *)
Lemma sim : exists x0, enter s0 = Ok x0 /\ forall n, exists x, lsteps Ins c ds bs n x0 = Ok x /\
  match x with
  | COut _ s => exists k g, gsteps gstep k g0 g /\ R s g /\ pc_is s g
  | CRun _ _ _ s => exists k g, gsteps gstep k g0 g /\ R s g /\ (n <= 2 * k + 1)%nat
  end.
Proof.
  destruct (enter_ok s0) as (b & i & d & E & _). eexists. split; [exact E|]. intros n.
  destruct (sim_steps n _ E) as (x & EX & IN). exists x. split; [assumption|]. destruct x as [segs e s|s]; [|exact IN].
  destruct IN as (k & g & GS & RS & X). exists k, g. split; [assumption|]. split; [assumption|].
  destruct X as [(? & ? & _ & _ & _ & ?)|[(_ & _ & ?)|(_ & _ & _ & ?)]]; lia.
Qed.
End Sim.
