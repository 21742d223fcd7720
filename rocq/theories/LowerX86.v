(** The functions emitted for x86-64 code without intra-instruction control flow:
    their blocks as plain statements, with the same executions. *)

From Coq Require Import ZArith Lia ZifyBool List Bool Arith.
From Verif Require Import Bits IR Facet Dsl X86 X86Sse X86Run Decode DecodeOk LiftFn LiftX86.
Import ListNotations.
Open Scope Z_scope.

(** The statements of an instruction that creates no blocks of its own (all but
    the string instructions with a REP prefix, and STOSB with one). The alignments
    of SSE memory accesses are dropped: here, an access never is misaligned. *)
Definition xplain (k : xc) : option (list stm) :=
  match k with XC_gp (CPlain l) => Some l | XC_sse l => Some (map snd l) | _ => None end.
Section Plain.
Variable Ins : Type.
Fixpoint xplain_segs (l : list (seg (LA := xlang) Ins)) : option (list (seg (LA := plain_lang) Ins)) :=
  match l with
  | [] => Some []
  | (i, d, k) :: l' => match xplain k, xplain_segs l' with Some k, Some l' => Some ((i, d, k) :: l') | _, _ => None end
  end.
Fixpoint xplain_blks (l : list (lblock (LA := xlang) Ins)) : option (list (lblock (LA := plain_lang) Ins)) :=
  match l with
  | [] => Some []
  | b :: l' => match xplain_segs (lb_code _ b), xplain_blks l' with
               | Some k, Some l' => Some (LB (LA := plain_lang) Ins (lb_addr _ b) k (lb_end _ b) :: l') | _, _ => None end
  end.

Context `{FpuOps}.
Variable c : cenv.
Lemma arun_run : forall l s s', arun c s l = Ok s' -> run c s (map snd l) = Ok s'.
Proof.
  induction l as [|[al i] l IH]; intros s s' E; cbn [arun map snd run] in *; [exact E|].
  destruct (aok c s al i) as [b| |]; try discriminate. cbn [bind] in E. destruct b; [|discriminate].
  destruct (run1 c s i) as [s1| |]; try discriminate. cbn [bind] in *. apply IH, E.
Qed.
Lemma xplain_run : forall k l s s', xplain k = Some l -> xc_run _ c s k = Ok s' -> run c s l = Ok s'.
Proof.
  intros k l s s' P E. destruct k as [[l0| |]|l0]; try discriminate P; injection P as <-; cbn [xc_run] in E.
  - rewrite xrunf_plain in E. exact E.
  - apply arun_run, E.
Qed.

Variable ds : dst Ins.
Variable bs : list (lblock (LA := xlang) Ins).
Variable bs' : list (lblock (LA := plain_lang) Ins).
Hypothesis BS : xplain_blks bs = Some bs'.
Inductive crel : conf (LA := xlang) Ins -> conf (LA := plain_lang) Ins -> Prop :=
| cr_run : forall l l' e s, xplain_segs l = Some l' -> crel (CRun (LA := xlang) Ins l e s) (CRun (LA := plain_lang) Ins l' e s)
| cr_out : forall s, crel (COut (LA := xlang) Ins s) (COut (LA := plain_lang) Ins s).
Lemma plain_block_at : forall a b, block_at (LA := xlang) Ins bs a = Some b ->
  exists b', block_at (LA := plain_lang) Ins bs' a = Some b' /\ xplain_segs (lb_code _ b) = Some (lb_code _ b') /\ lb_end _ b' = lb_end _ b.
Proof.
  revert bs' BS. unfold block_at. induction bs as [|x l IH]; intros l' E a b F; cbn [xplain_blks find] in *; [discriminate|].
  destruct (xplain_segs (lb_code Ins x)) as [k|] eqn:K; [|discriminate]. destruct (xplain_blks l) as [l1|] eqn:L1; [|discriminate].
  injection E as <-. cbn [find lb_addr]. destruct (lb_addr Ins x =? a).
  - injection F as <-. eexists. split; [reflexivity|]. split; [exact K|reflexivity].
  - apply (IH l1 eq_refl a b F).
Qed.
Lemma plain_goto : forall a s x, goto (LA := xlang) Ins ds bs a s = Ok x -> exists x', goto (LA := plain_lang) Ins ds bs' a s = Ok x' /\ crel x x'.
Proof.
  intros a s x E. unfold goto in *. destruct (resolve Ins ds a).
  - destruct (block_at (LA := xlang) Ins bs a) as [b|] eqn:B; [|discriminate]. injection E as <-.
    destruct (plain_block_at a b B) as (b' & -> & K & EN). eexists. split; [reflexivity|]. rewrite EN. constructor. exact K.
  - injection E as <-. eexists. split; [reflexivity|]. constructor.
Qed.
Lemma plain_step : forall x x' y, crel x x' -> lstep (LA := xlang) Ins c ds bs x = Ok y -> exists y', lstep (LA := plain_lang) Ins c ds bs' x' = Ok y' /\ crel y y'.
Proof.
  intros x x' y R E. destruct R as [l l' e s P|s].
  - destruct l as [|[[i d] k] l]; cbn [xplain_segs] in P.
    + injection P as <-. destruct e; cbn [lstep] in *; try (injection E as <-; eexists; split; [reflexivity|constructor]).
      destruct (pc_branch c (s_pc s)) as [[[v a1] a2]| |]; try discriminate E. cbn [bind] in *.
      destruct (target v a1 a2) as [t| |]; try discriminate E. cbn [bind] in *. apply plain_goto, E.
    + destruct (xplain k) as [k'|] eqn:K; [|discriminate]. destruct (xplain_segs l) as [l1|] eqn:L1; [|discriminate]. injection P as <-.
      cbn [lstep crun xlang plain_lang] in *. destruct (xc_run _ c s k) as [s1| |] eqn:RN; try discriminate E. cbn [bind] in E. injection E as <-.
      rewrite (xplain_run _ _ _ _ K RN). cbn [bind]. eexists. split; [reflexivity|]. constructor. exact L1.
  - injection E as <-. eexists. split; [reflexivity|]. constructor.
Qed.
Lemma plain_steps : forall n x x' y, crel x x' -> lsteps (LA := xlang) Ins c ds bs n x = Ok y -> exists y', lsteps (LA := plain_lang) Ins c ds bs' n x' = Ok y' /\ crel y y'.
Proof.
  induction n as [|n IH]; intros x x' y R E; cbn [lsteps] in *.
  - injection E as <-. eexists. split; [reflexivity|exact R].
  - destruct (lstep (LA := xlang) Ins c ds bs x) as [x1| |] eqn:S1; try discriminate E. cbn [bind] in E.
    destruct (plain_step x x' x1 R S1) as (x1' & -> & R1). cbn [bind]. eapply IH; eassumption.
Qed.
End Plain.
