(** Execution of the code of one x86-64 instruction as a function (X86.v gives it
    as the relation [xrun]). *)

From Coq Require Import ZArith Lia ZifyBool List Bool Arith.
From Verif Require Import Bits IR Facet Dsl Rv64Spec X86.
Import ListNotations.
Open Scope Z_scope.

Section Run.
Context `{FpuOps}.
Variable c : cenv.

(** A loop that goes on in a state, or has ended. *)
Inductive lout := More (s : st) | Fin (r : res st).
Section Loop.
Variable phi : list (nat * dexp * dexp).
Variable body : list stm.
Variable again : dexp.
(** One round of the loop block: body, then back edge or exit edge. *)
Definition round (s : st) : lout :=
  match run c s body with
  | Ok s1 =>
    match cond_val c s1 again with
    | Ok false => Fin (Ok s1)
    | Ok true => match do_phis c s1 true phi with Ok s2 => More s2 | UB => Fin UB | TyErr => Fin TyErr end
    | UB => Fin UB
    | TyErr => Fin TyErr
    end
  | UB => Fin UB
  | TyErr => Fin TyErr
  end.
Fixpoint rounds (n : nat) (s : st) : lout :=
  match n with O => More s | S n' => match round s with More s' => rounds n' s' | Fin r => Fin r end end.
(** The same, counting in binary. *)
Fixpoint roundp (p : positive) (s : st) : lout :=
  match p with
  | xH => round s
  | xO q => match roundp q s with More s' => roundp q s' | Fin r => Fin r end
  | xI q => match round s with
            | More s' => match roundp q s' with More s2 => roundp q s2 | Fin r => Fin r end
            | Fin r => Fin r
            end
  end.
Lemma rounds_add : forall n m s, rounds (n + m) s = match rounds n s with More s' => rounds m s' | Fin r => Fin r end.
Proof. induction n as [|n IH]; intros m s; cbn [Nat.add rounds]; [reflexivity|]. destruct (round s); [apply IH|reflexivity]. Qed.
Lemma roundp_rounds : forall p s, roundp p s = rounds (Pos.to_nat p) s.
Proof.
  induction p as [p IH|p IH|]; intros s; cbn [roundp].
  - rewrite Pos2Nat.inj_xI. cbn [rounds]. destruct (round s) as [s'|]; [|reflexivity].
    replace (2 * Pos.to_nat p)%nat with (Pos.to_nat p + Pos.to_nat p)%nat by lia. rewrite rounds_add, IH.
    destruct (rounds (Pos.to_nat p) s') as [s2|]; [apply IH|reflexivity].
  - rewrite Pos2Nat.inj_xO. replace (2 * Pos.to_nat p)%nat with (Pos.to_nat p + Pos.to_nat p)%nat by lia. rewrite rounds_add, IH.
    destruct (rounds (Pos.to_nat p) s) as [s2|]; [apply IH|reflexivity].
  - change (Pos.to_nat 1) with 1%nat. cbn [rounds]. destruct (round s); reflexivity.
Qed.
(** A loop counter has 64 bits: after 2^64 rounds a loop is taken not to end
    (which is not an outcome of well-typed code). *)
Definition max_rounds : positive := Pos.pow 2 64.
Definition loopq (p : positive) (s : st) : res st := match roundp p s with Fin r => r | More _ => TyErr end.
Lemma loopq_in : forall p n s r, rounds n s = Fin r -> Z.of_nat n <= Z.pos p -> loopq p s = r.
Proof.
  intros p n s r E B. unfold loopq. rewrite roundp_rounds.
  replace (Pos.to_nat p) with (n + (Pos.to_nat p - n))%nat by lia. rewrite rounds_add, E. reflexivity.
Qed.
Lemma max_rounds_val : Z.pos max_rounds = 2 ^ 64.
Proof. reflexivity. Qed.
(** A loop that ends is related by [loop]. *)
Lemma rounds_loop : forall n s s', rounds n s = Fin (Ok s') -> loop c phi body again s (Ok s').
Proof.
  induction n as [|n IH]; intros s s' E; cbn [rounds] in E; [discriminate|]. unfold round in E.
  destruct (run c s body) as [s1| |] eqn:R; [|discriminate..].
  destruct (cond_val c s1 again) as [[|]| |] eqn:C; [|injection E as <-; eapply loop_exit; eassumption|discriminate..].
  destruct (do_phis c s1 true phi) as [s2| |] eqn:D; [|discriminate..]. eapply loop_next; [eassumption..|]. apply IH. exact E.
Qed.
Lemma loopq_loop : forall p s s', loopq p s = Ok s' -> loop c phi body again s (Ok s').
Proof.
  intros p s s' E. unfold loopq in E. rewrite roundp_rounds in E. destruct (rounds (Pos.to_nat p) s) as [x|r] eqn:R; [discriminate|].
  subst r. eapply rounds_loop, R.
Qed.
End Loop.

(** lifter-gp.cc:729-852 and 866-890: the blocks of an instruction, as [xrun] (X86.v). *)
Definition xrunq (p : positive) (s : st) (k : xcode) : res st :=
  match k with
  | CPlain l => run c s l
  | CLoop h g phi b a cphi cont =>
    do s1 <- run c s h; do t <- cond_val c s1 g;
    if t then do s2 <- do_phis c s1 false phi; do s3 <- loopq phi b a p s2; do s4 <- do_phis c s3 true cphi; run c s4 cont
    else do s2 <- do_phis c s1 false cphi; run c s2 cont
  | CIf h g l1 l2 phi cont =>
    do s1 <- run c s h; do t <- cond_val c s1 g;
    do s2 <- run c s1 (if t then l1 else l2); do s3 <- do_phis c s2 (negb t) phi; run c s3 cont
  end.
Definition xrunf : st -> xcode -> res st := xrunq max_rounds.
(** The function only has results the relation has. *)
Lemma xrunq_xrun : forall p s k s', xrunq p s k = Ok s' -> xrun c s k (Ok s').
Proof.
  intros p s k s' E. destruct k as [l|h g phi b a cphi cont|h g l1 l2 phi cont]; cbn [xrunq] in E.
  - rewrite <- E. constructor.
  - destruct (run c s h) as [s1| |] eqn:R; try discriminate. cbn [bind] in E.
    destruct (cond_val c s1 g) as [[|]| |] eqn:C; try discriminate; cbn [bind] in E.
    + destruct (do_phis c s1 false phi) as [s2| |] eqn:D; try discriminate. cbn [bind] in E.
      destruct (loopq phi b a p s2) as [s3| |] eqn:L; try discriminate. cbn [bind] in E.
      destruct (do_phis c s3 true cphi) as [s4| |] eqn:D4; try discriminate. cbn [bind] in E. rewrite <- E.
      eapply xrun_loop; try eassumption. eapply loopq_loop, L.
    + destruct (do_phis c s1 false cphi) as [s2| |] eqn:D; try discriminate. cbn [bind] in E. rewrite <- E. eapply xrun_skip; eassumption.
  - destruct (run c s h) as [s1| |] eqn:R; try discriminate. cbn [bind] in E.
    destruct (cond_val c s1 g) as [t| |] eqn:C; try discriminate; cbn [bind] in E.
    destruct (run c s1 (if t then l1 else l2)) as [s2| |] eqn:R2; try discriminate. cbn [bind] in E.
    destruct (do_phis c s2 (negb t) phi) as [s3| |] eqn:D; try discriminate. cbn [bind] in E. rewrite <- E. eapply xrun_if; eassumption.
Qed.
Lemma xrunf_xrun : forall s k s', xrunf s k = Ok s' -> xrun c s k (Ok s').
Proof. intros s k s'. apply xrunq_xrun. Qed.
End Run.
