(** Lifting a decoded function: model of /repo/src/function.cc:71-243 (LiftHelper),
    with the emitted code of a block given as builder statements (Dsl.v). The SSA
    side of the same code (PHIs, CPU struct accesses) is Cfg.v. *)

From Coq Require Import ZArith Lia ZifyBool List Bool Arith.
From Verif Require Import Bits IR Facet Dsl Decode DecodeOk.
Import ListNotations.
Open Scope Z_scope.

(** Outcome of Lift: a null pointer, a violated assertion or null dereference, or
    a function. *)
Inductive lres (T : Type) := LNull | LBad | LFn (x : T).
Arguments LNull {T}. Arguments LBad {T}. Arguments LFn {T}.

(** The addresses the PC register holds after a list of statements, starting from
    [p]: the arguments GetPCBranch (regfile.cc:617-633) can return, other than 0. *)
Fixpoint pc_of (l : list stm) (p : list Z) : list Z :=
  match l with
  | [] => p
  | SPcConst a :: l' => pc_of l' [a]
  | SPcCond _ a1 a2 :: l' => pc_of l' [a1; a2]
  | SPcCallret a :: l' => pc_of l' [a]
  | SPcVal _ :: l' | SCall _ :: l' => pc_of l' []
  | _ :: l' => pc_of l' p
  end.
Definition is_ret (i : stm) : bool := match i with SRet => true | _ => false end.
Definition has_ret (l : list stm) : bool := existsb is_ret l.

(** The code of one instruction as the driver sees it: does it end in ForceReturn
    (lifter-base.h:83-94), its effect, and the addresses it leaves in the PC. For
    RV64 and AArch64 it is a list of statements; the x86-64 lifter also creates
    blocks of its own (LiftX86.v). *)
Record lang := Lang {
  Code : Type;
  cret : Code -> bool;
  crun : FpuOps -> cenv -> st -> Code -> res st;
  cpc : Code -> list Z -> list Z }.
Arguments cret {l}. Arguments crun {l F} : rename. Arguments cpc {l}.
Existing Class lang.
Canonical Structure plain_lang : lang := Lang (list stm) has_ret (@run) pc_of.
#[export] Existing Instance plain_lang.

Section Drv.
Context {LA : lang}.
Variable Ins : Type.
Variable ilen : Ins -> Z.
Variable icls : Ins -> kind * Z.
(** The architecture's LiftInstruction for the instruction at a position of the
    list: return value and statements issued ([None]: assertion). What it knows to
    be constant may depend on the position. *)
Variable lf : nat -> Ins -> option (bool * Code LA).

Notation dinst := (dinst Ins).
Notation dst := (dst Ins).

(** How a block ends: by a ForceReturn inside it (the register file is gone,
    function.cc:181-182), by a branch to the exit block (183-186), by a branch on
    the PC (187-191). *)
Inductive bend := BRet | BExit | BBranch.
Definition seg : Type := nat * dinst * Code LA.
Record lblock := LB { lb_addr : Z; lb_code : list seg; lb_end : bend }.

(** function.cc:179: is this the last instruction of its block? *)
Definition last_of (l : list dinst) : bool := match l with [] => true | d :: _ => d_new _ d end.
Definition end_of (d : dinst) (code : Code LA) : bend :=
  if cret code then BRet else if d_inh _ d then BExit else BBranch.

(** function.cc:159-194, from position [i] on. The first two components of the
    result are what is still to be emitted into the current block. [skip]: inside
    lines 174-176. A block start at address 0 resolves to the exit block (72-73),
    which is then initialised twice; an instruction after a ForceReturn in its
    block, or without a block, dereferences null. *)
Fixpoint lloop (i : nat) (l : list dinst) (skip : bool) : lres (list seg * bend * list lblock) :=
  match l with
  | [] => LFn ([], BBranch, [])
  | d :: l' =>
    if skip && negb (d_new _ d) then lloop (S i) l' true
    else if d_new _ d && (d_start _ d =? 0) then LBad
    else if negb (d_new _ d) && Nat.eqb i 0 then LBad
    else match lf i (d_i _ d) with
    | None => LBad
    | Some (ok, code) =>
      if negb ok && Nat.eqb i 0 then LNull
      else match lloop (S i) l' (negb ok) with
      | LNull => LNull
      | LBad => LBad
      | LFn (segs, e, bs) =>
        let fin := negb ok || last_of l' in
        if negb fin && cret code then LBad
        else
        let segs1 := if fin then [(i, d, code)] else (i, d, code) :: segs in
        let e1 := if fin then end_of d code else e in
        if d_new _ d then LFn ([], BBranch, LB (d_start _ d) segs1 e1 :: bs)
        else LFn (segs1, e1, bs)
      end
    end
  end.

(** function.cc:93-243. [known]: the architecture has a lifter. The result is the
    address of the block the entry block branches to, and the blocks.
    Not modelled: function attributes (124-132), the IR verifier (237-240). *)
Definition lift (known : bool) (ins : list dinst) : lres (Z * list lblock) :=
  match ins with
  | [] => LNull
  | d :: _ =>
    if negb known then LNull
    else if d_start _ d =? 0 then LBad   (* 142: *exit_block is null here *)
    else match lloop 0 ins false with
         | LNull => LNull
         | LBad => LBad
         | LFn (_, _, bs) => LFn (d_start _ d, bs)
         end
  end.

(** function.cc:71-91 ResolveAddr: [true] for a block of this function, [false]
    for the exit block. *)
Definition resolve (s : dst) (a : Z) : bool :=
  if a =? 0 then false
  else let e := f_map _ s a in
       e_dec e && match nth_error (f_ins _ s) (e_idx e) with Some d => d_new _ d | None => false end.

(** Running the lifted function. *)
Inductive conf := CRun (segs : list seg) (e : bend) (s : st) | COut (s : st).
Definition target (k : rv) (a1 a2 : Z) : res Z :=
  match k with V _ z => Ok (if z =? 0 then a2 else a1) | Poison _ => UB end.

Section Run.
Context `{FpuOps}.
Variable c : cenv.
Variable ds : dst.
Variable bs : list lblock.

Definition block_at (a : Z) : option lblock := find (fun b => lb_addr b =? a) bs.
(** basicblock.cc:72-99: entering the block at [a], or the exit block. *)
Definition goto (a : Z) (s : st) : res conf :=
  if resolve ds a then
    match block_at a with Some b => Ok (CRun (lb_code b) (lb_end b) s) | None => TyErr end
  else Ok (COut s).
Definition lstep (x : conf) : res conf :=
  match x with
  | COut s => Ok (COut s)
  | CRun ((_, _, code) :: segs) e s => do s' <- crun c s code; Ok (CRun segs e s')
  | CRun [] BRet s | CRun [] BExit s => Ok (COut s)
  | CRun [] BBranch s =>
    do p <- pc_branch c (s_pc s); let '(k, a1, a2) := p in
    do t <- target k a1 a2; goto t s
  end.
Fixpoint lsteps (n : nat) (x : conf) : res conf :=
  match n with O => Ok x | S n' => do y <- lstep x; lsteps n' y end.
End Run.

(** ** Shape of the result *)
Definition seg_ix (x : seg) : nat := fst (fst x).

(** [segs], ending with [e], is the code for the instructions from position [i]
    of [ins] to the end of the block, or up to one that is not supported. *)
Inductive bcode (ins : list dinst) : nat -> list seg -> bend -> Prop :=
| bc_fail : forall i d code, nth_error ins i = Some d -> lf i (d_i _ d) = Some (false, code) ->
    bcode ins i [(i, d, code)] (end_of d code)
| bc_last : forall i d code, nth_error ins i = Some d -> lf i (d_i _ d) = Some (true, code) ->
    match nth_error ins (S i) with Some d' => d_new _ d' = true | None => True end ->
    bcode ins i [(i, d, code)] (end_of d code)
| bc_next : forall i d code d' segs e, nth_error ins i = Some d -> lf i (d_i _ d) = Some (true, code) ->
    cret code = false -> nth_error ins (S i) = Some d' -> d_new _ d' = false -> bcode ins (S i) segs e ->
    bcode ins i ((i, d, code) :: segs) e.

Lemma nth_pre : forall T (p : list T) x l k, nth_error (p ++ x :: l) (length p + k) = nth_error (x :: l) k.
Proof. intros. rewrite nth_error_app2 by lia. f_equal. lia. Qed.

Lemma lloop_shape : forall l p skip segs e bs, lloop (length p) l skip = LFn (segs, e, bs) ->
  (skip = false -> forall d l', l = d :: l' -> d_new _ d = false -> bcode (p ++ l) (length p) segs e) /\
  (forall b, In b bs -> exists i d, nth_error (p ++ l) i = Some d /\ (length p <= i)%nat /\ d_new _ d = true /\ lb_addr b = d_start _ d /\
     d_start _ d <> 0 /\ bcode (p ++ l) i (lb_code b) (lb_end b)) /\
  (forall i d, nth_error (p ++ l) i = Some d -> (length p <= i)%nat -> d_new _ d = true -> exists b, In b bs /\ lb_addr b = d_start _ d).
Proof.
  induction l as [|d l IH]; intros p skip segs e bs E; cbn [lloop] in E.
  - injection E as <- <- <-. split; [discriminate|]. split; [intros b []|].
    intros i d N L. rewrite app_nil_r in N. assert (nth_error p i <> None) by congruence. apply nth_error_Some in H. lia.
  - assert (EP : p ++ d :: l = (p ++ [d]) ++ l) by (rewrite <- app_assoc; reflexivity).
    assert (LP : length (p ++ [d]) = S (length p)) by (rewrite app_length; cbn; lia).
    assert (ND : nth_error (p ++ d :: l) (length p) = Some d).
    { replace (length p) with (length p + 0)%nat by lia. rewrite nth_pre. reflexivity. }
    destruct (skip && negb (d_new _ d)) eqn:SK.
    { rewrite <- LP in E. apply IH in E. destruct E as (_ & E2 & E3). apply andb_prop in SK. destruct SK as [-> NW].
      split; [discriminate|]. rewrite EP. split.
      - intros b I0. destruct (E2 b I0) as (i & d' & X1 & X2 & X3). exists i, d'. split; [assumption|]. split; [lia|assumption].
      - intros i d' N L NN. destruct (Nat.eq_dec i (length p)) as [->|].
        + rewrite <- EP in N. rewrite ND in N. injection N as <-. rewrite NN in NW. discriminate.
        + apply (E3 i d' N); [lia|assumption]. }
    destruct (d_new _ d && (d_start _ d =? 0)) eqn:Z0; [discriminate|].
    destruct (negb (d_new _ d) && Nat.eqb (length p) 0); [discriminate|].
    destruct (lf (length p) (d_i _ d)) as [[ok code]|] eqn:L; [|discriminate].
    destruct (negb ok && Nat.eqb (length p) 0) eqn:F0; [discriminate|].
    destruct (lloop (S (length p)) l (negb ok)) as [| |[[segs0 e0] bs0]] eqn:R; try discriminate.
    rewrite <- LP in R. apply IH in R. rewrite <- EP, LP in R. destruct R as (R1 & R2 & R3). cbv zeta in E.
    set (fin := negb ok || last_of l) in *.
    destruct (negb fin && cret code) eqn:HR; [discriminate|].
    assert (BC : bcode (p ++ d :: l) (length p) (if fin then [(length p, d, code)] else (length p, d, code) :: segs0)
                       (if fin then end_of d code else e0)).
    { destruct ok; cbn [negb orb] in fin; subst fin.
      - destruct (last_of l) eqn:LO.
        + apply bc_last; [assumption..|]. replace (S (length p)) with (length p + 1)%nat by lia. rewrite nth_pre. cbn [nth_error].
          destruct l as [|d' l']; cbn [nth_error]; [exact I|exact LO].
        + destruct l as [|d' l']; [discriminate|]. cbn [last_of] in LO. cbn [negb andb] in HR.
          eapply bc_next; [eassumption..| |eassumption|exact (R1 eq_refl d' l' eq_refl LO)].
          replace (S (length p)) with (length p + 1)%nat by lia. rewrite nth_pre. reflexivity.
      - apply bc_fail; assumption. }
    destruct (d_new _ d) eqn:NW.
    + injection E as <- <- <-. split; [intros _ d0 l0 Q NN; injection Q as <- <-; congruence|]. split.
      * intros b [<-|I0].
        -- exists (length p), d. split; [assumption|]. split; [lia|]. split; [assumption|]. split; [reflexivity|].
           cbn [andb] in Z0. split; [lia|]. exact BC.
        -- destruct (R2 b I0) as (i & d' & X1 & X2 & X3). exists i, d'. split; [assumption|]. split; [lia|assumption].
      * intros i d' N LL NN. destruct (Nat.eq_dec i (length p)) as [->|].
        -- rewrite ND in N. injection N as <-. eexists. split; [left; reflexivity|reflexivity].
        -- destruct (R3 i d' N) as (b & I0 & X); [lia|assumption|]. exists b. split; [right|]; assumption.
    + injection E as <- <- <-. split; [intros; assumption|]. split.
      * intros b I0. destruct (R2 b I0) as (i & d' & X1 & X2 & X3). exists i, d'. split; [assumption|]. split; [lia|assumption].
      * intros i d' N LL NN. destruct (Nat.eq_dec i (length p)) as [->|]; [congruence|].
        apply (R3 i d' N); [lia|assumption].
Qed.

(** Every block start has exactly the code of its block. *)
Lemma lift_blocks : forall ins a bs, lift true ins = LFn (a, bs) ->
  (exists d l, ins = d :: l /\ d_start _ d = a /\ a <> 0 /\ d_new _ d = true) /\
  (forall b, In b bs -> exists i d, nth_error ins i = Some d /\ d_new _ d = true /\ lb_addr b = d_start _ d /\ d_start _ d <> 0 /\
     bcode ins i (lb_code b) (lb_end b)) /\
  (forall i d, nth_error ins i = Some d -> d_new _ d = true -> exists b, In b bs /\ lb_addr b = d_start _ d).
Proof.
  intros ins a bs E. unfold lift in E. destruct ins as [|d l]; [discriminate|]. cbn [negb] in E.
  destruct (Z.eqb_spec (d_start _ d) 0) as [Q|Q]; [discriminate|].
  destruct (lloop 0 (d :: l) false) as [| |[[sg e] bs0]] eqn:R; try discriminate. injection E as <- <-.
  split.
  { exists d, l. repeat split; [assumption|]. cbn [lloop andb negb] in R. destruct (d_new _ d); [reflexivity|]. discriminate. }
  destruct (lloop_shape (d :: l) [] false sg e bs0 R) as (_ & R2 & R3). cbn [app length] in *. split.
  - intros b I0. destruct (R2 b I0) as (i & d' & X1 & _ & X). eauto.
  - intros i d' N NN. apply (R3 i d' N); [lia|assumption].
Qed.

(** ** When Lift succeeds *)
(** Position [i] is in a block whose earlier instructions are all supported. *)
Inductive live (ins : list dinst) : nat -> Prop :=
| live_new : forall i d, nth_error ins i = Some d -> d_new _ d = true -> live ins i
| live_next : forall i d code d', live ins i -> nth_error ins i = Some d -> lf i (d_i _ d) = Some (true, code) ->
    nth_error ins (S i) = Some d' -> live ins (S i).

(** No assertion is violated while lifting. *)
Definition lifts_clean (ins : list dinst) : Prop :=
  (forall d, In d ins -> d_start _ d <> 0) /\
  (forall i d, live ins i -> nth_error ins i = Some d -> exists ok code, lf i (d_i _ d) = Some (ok, code) /\
     (ok = true -> cret code = true -> match nth_error ins (S i) with Some d' => d_new _ d' = true | None => True end)).

Lemma lloop_total : forall l p skip, lifts_clean (p ++ l) ->
  (p = [] -> match l with [] => True | d :: _ => d_new _ d = true /\ exists code, lf 0%nat (d_i _ d) = Some (true, code) end) ->
  (skip = false -> p <> [] -> match l with [] => True | d :: _ => live (p ++ l) (length p) end) ->
  exists x, lloop (length p) l skip = LFn x.
Proof.
  induction l as [|d l IH]; intros p skip C P0 LV; cbn [lloop]; [eauto|].
  assert (EP : p ++ d :: l = (p ++ [d]) ++ l) by (rewrite <- app_assoc; reflexivity).
  assert (LP : length (p ++ [d]) = S (length p)) by (rewrite app_length; cbn; lia).
  assert (ND : nth_error (p ++ d :: l) (length p) = Some d).
  { replace (length p) with (length p + 0)%nat by lia. rewrite nth_pre. reflexivity. }
  destruct (skip && negb (d_new _ d)) eqn:SK.
  { rewrite <- LP. apply IH; [rewrite <- EP; assumption|intro Q; destruct p; discriminate|discriminate]. }
  destruct C as [C1 C2].
  assert (N0 : d_start _ d <> 0) by (apply C1, in_or_app; right; left; reflexivity).
  destruct (Z.eqb_spec (d_start _ d) 0) as [|_]; [contradiction|]. rewrite andb_false_r.
  assert (A1 : negb (d_new _ d) && Nat.eqb (length p) 0 = false).
  { destruct p; [destruct (P0 eq_refl) as [-> _]; reflexivity|]. apply andb_false_r. }
  rewrite A1.
  assert (LI : live (p ++ d :: l) (length p)).
  { destruct (d_new _ d) eqn:NW; [eapply live_new; eassumption|]. destruct p as [|d0 p]; [discriminate|].
    apply LV; [|discriminate]. destruct skip; [discriminate|reflexivity]. }
  destruct (C2 _ _ LI ND) as (ok & code & L & HR). rewrite L.
  assert (A2 : negb ok && Nat.eqb (length p) 0 = false).
  { destruct p; [|apply andb_false_r]. destruct (P0 eq_refl) as (_ & code' & L'). cbn [length] in L. rewrite L in L'. injection L' as -> _. reflexivity. }
  rewrite A2.
  assert (NX : forall d' l', l = d' :: l' -> nth_error (p ++ d :: l) (S (length p)) = Some d').
  { intros d' l' ->. replace (S (length p)) with (length p + 1)%nat by lia. rewrite nth_pre. reflexivity. }
  destruct (IH (p ++ [d]) (negb ok)) as [[[segs e] bs] R].
  { rewrite <- EP. split; assumption. }
  { intro Q. destruct p; discriminate. }
  { intros OK _. destruct ok; [|discriminate]. destruct l as [|d' l']; [exact I|]. rewrite <- EP, LP.
    eapply live_next; [exact LI|exact ND|exact L|]. apply (NX d' l' eq_refl). }
  rewrite LP in R. rewrite R. cbv zeta.
  assert (A3 : negb (negb ok || last_of l) && cret code = false).
  { destruct ok; [|reflexivity]. cbn [negb orb]. destruct (cret code) eqn:Q; [|apply andb_false_r].
    specialize (HR eq_refl eq_refl). destruct l as [|d' l']; [reflexivity|]. rewrite (NX d' l' eq_refl) in HR. cbn [last_of]. rewrite HR. reflexivity. }
  rewrite A3. destruct (d_new _ d); eauto.
Qed.

Lemma lift_null : forall known ins, lifts_clean ins ->
  match ins with [] => True | d :: _ => d_new _ d = true end ->
  (lift known ins = LNull <->
   (ins = [] \/ known = false \/ exists d code, nth_error ins 0 = Some d /\ lf 0%nat (d_i _ d) = Some (false, code))) /\
  (lift known ins <> LNull -> exists a bs, lift known ins = LFn (a, bs)).
Proof.
  intros known ins C HD. destruct ins as [|d l]; [cbn [lift]; split; [split; auto|intro X; congruence]|].
  unfold lift. destruct known; cbn [negb]; [|split; [split; auto|intro X; congruence]].
  pose proof C as C0. destruct C0 as [C1 C2]. destruct (Z.eqb_spec (d_start _ d) 0) as [Q|_]; [exfalso; apply (C1 d); [left; reflexivity|assumption]|].
  assert (LI : live (d :: l) 0) by (eapply live_new; [reflexivity|assumption]).
  destruct (C2 0%nat d LI eq_refl) as (ok & code & L & HR). destruct ok.
  - destruct (lloop_total (d :: l) [] false C) as [[[sg e] bs] R].
    + intros _. eauto.
    + intros _ X. congruence.
    + cbn [length] in R. rewrite R. split; [|eauto]. split; [discriminate|]. intros [X|[X|(d' & code' & X & Y)]]; [discriminate..|].
      injection X as <-. congruence.
  - assert (R : lloop 0 (d :: l) false = LNull).
    { cbn [lloop andb]. destruct (Z.eqb_spec (d_start _ d) 0) as [Q|_]; [exfalso; apply (C1 d); [left; reflexivity|assumption]|].
      rewrite HD, L. reflexivity. }
    rewrite R. split; [|congruence]. split; [|reflexivity]. intros _. right. right. exists d, code. auto.
Qed.

(** ResolveAddr finds exactly the lifted blocks. *)
Lemma block_at_resolve : forall ds a bs, inv Ins ilen icls ds -> lift true (f_ins _ ds) = LFn (a, bs) ->
  forall x, resolve ds x = true -> exists b i d, block_at bs x = Some b /\ nth_error (f_ins _ ds) i = Some d /\ d_start _ d = x /\
    d_new _ d = true /\ bcode (f_ins _ ds) i (lb_code b) (lb_end b).
Proof.
  intros ds a bs V E x RX. destruct (lift_blocks _ _ _ E) as (_ & B2 & B3). unfold resolve in RX.
  destruct (x =? 0); [discriminate|]. apply andb_prop in RX. destruct RX as [DE NW].
  destruct (v_dec _ _ _ _ V x DE) as (d & N & SX). rewrite N in NW.
  destruct (B3 _ _ N NW) as (b0 & I0 & A0). unfold block_at.
  destruct (find (fun b => lb_addr b =? x) bs) as [b|] eqn:FD.
  - apply find_some in FD. destruct FD as [I1 A1]. apply Z.eqb_eq in A1. destruct (B2 b I1) as (i & d' & N' & NW' & AD & _ & BC).
    exists b, i, d'. split; [reflexivity|]. split; [assumption|]. split; [congruence|]. split; assumption.
  - exfalso. apply (find_none _ _ FD) in I0. cbn beta in I0. rewrite A0, SX, Z.eqb_refl in I0. discriminate.
Qed.
End Drv.
