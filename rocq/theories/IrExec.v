(** A procedure that computes executions of emitted functions ([irun]); used for
    examples. *)

From Coq Require Import ZArith Lia ZifyBool List Bool Arith.
From Verif Require Import Bits IR Facet Dsl RegFile RegFileOk RegScript Layout Cfg CfgHeap CfgLog CfgBuild CfgSem Lower.
Import ListNotations.
Open Scope Z_scope.

Definition atom_eqb (a b : atom) : bool :=
  match a, b with
  | AVar n t, AVar n' t' => Nat.eqb n n' && ty_eqb t t'
  | APhi b r, APhi b' r' => Nat.eqb b b' && areg_eqb r r'
  | ASlot u r t, ASlot u' r' t' => Nat.eqb u u' && areg_eqb r r' && ty_eqb t t'
  | _, _ => false
  end.
Definition rv_eqb (a b : rv) : bool :=
  match a, b with V t z, V t' z' => ty_eqb t t' && (z =? z') | Poison t, Poison t' => ty_eqb t t' | _, _ => false end.
Lemma rv_eqb_eq : forall a b, rv_eqb a b = true -> a = b.
Proof.
  intros [t z|t] [t' z'|t'] E; cbn [rv_eqb] in E; try discriminate.
  - apply andb_prop in E. destruct E as [E1 E2]. apply ty_eqb_eq in E1. apply Z.eqb_eq in E2. congruence.
  - apply ty_eqb_eq in E. congruence.
Qed.

Section Exec.
Context `{FpuOps}.
Variable c : cenv.
Notation A := (c_arch c).
Variable m : em.
Variable npc : nat.
Variable L : lifted.
Notation f := (l_fn L).

Definition wfb (t : ty) (x : rv) : bool := ty_eqb (ty_of x) t && match x with V t z => (0 <=? z) && (z <? 2 ^ tsize t) | Poison _ => true end.
Lemma wfb_ok : forall t x, wfb t x = true -> ty_of x = t /\ wf_rv x.
Proof.
  intros t x E. unfold wfb in E. apply andb_prop in E. destruct E as [E1 E2]. apply ty_eqb_eq in E1. split; [assumption|].
  destruct x; cbn [wf_rv]; [|exact I]. unfold inr. lia.
Qed.
(** Values: the newest entry of a list; ill-typed entries do not count. *)
Definition aenv (l : list (atom * rv)) : env :=
  fun a => match find (fun x => atom_eqb (fst x) a) l with Some (_, x) => if wfb (aty A a) x then x else Poison (aty A a) | None => Poison (aty A a) end.
Lemma aenv_ok : forall l, env_ok A (aenv l).
Proof.
  intros l a. unfold aenv. destruct (find _ l) as [[b x]|]; [|split; [reflexivity|exact I]].
  destruct (wfb (aty A a) x) eqn:E; [apply wfb_ok; assumption|split; [reflexivity|exact I]].
Qed.
Definition owned (k : nat) (a : atom) : bool := match owner own L a with Some j => Nat.eqb j k | None => false end.
Lemma atom_eqb_owner : forall a b, atom_eqb a b = true -> owner own L a = owner own L b.
Proof.
  intros [] [] E; cbn [atom_eqb] in E; try discriminate; repeat (apply andb_prop in E; destruct E as [E ?]); cbn [owner]; f_equal; try f_equal; try (apply Nat.eqb_eq; assumption);
  match goal with H : Nat.eqb _ _ = true |- _ => apply Nat.eqb_eq in H; subst end; reflexivity.
Qed.
Lemma aenv_app : forall k l l' a, forallb (fun x => owned k (fst x)) l' = true -> owner own L a <> Some k -> aenv (l' ++ l) a = aenv l a.
Proof.
  intros k l l' a F N. induction l' as [|[b x] l' IH]; [reflexivity|]. cbn [forallb fst] in F. apply andb_prop in F. destruct F as [F1 F2].
  unfold aenv. cbn [app find fst]. destruct (atom_eqb b a) eqn:E.
  - exfalso. apply N. rewrite <- (atom_eqb_owner _ _ E). unfold owned in F1. destruct (owner own L b); [|discriminate]. apply Nat.eqb_eq in F1. congruence.
  - apply IH. exact F2.
Qed.

(** Instructions one by one, with their results added to the values. *)
Fixpoint guess (l : list (atom * rv)) (p : rv) (mem : bytes) (code : list inst) : list (atom * rv) :=
  match code with
  | [] => l
  | i :: code => match istep (aenv l) p mem i with Ok (xs, mem') => guess (xs ++ l) p mem' code | _ => l end
  end.
Fixpoint iseqb (e : env) (p : rv) (mem : bytes) (code : list inst) : option bytes :=
  match code with
  | [] => Some mem
  | i :: code => match istep e p mem i with
                 | Ok (xs, mem') => if forallb (fun x => rv_eqb (e (fst x)) (snd x)) xs then iseqb e p mem' code else None
                 | _ => None
                 end
  end.
Lemma iseqb_ok : forall e p code mem mem', iseqb e p mem code = Some mem' -> iseq e p mem code (Ok mem').
Proof.
  intros e p. induction code as [|i code IH]; intros mem mem' E; cbn [iseqb] in E; [injection E as ->; constructor|].
  destruct (istep e p mem i) as [[xs mm]| |] eqn:Q; try discriminate. destruct (forallb _ xs) eqn:F; [|discriminate].
  econstructor; [exact Q| |apply IH; exact E]. intros a x I0. rewrite forallb_forall in F. apply rv_eqb_eq. exact (F _ I0).
Qed.

Definition sysl : list areg := [GP 256; GP 257].
Lemma sysl_in : forall A0 r, sysb A0 r = true -> In r sysl.
Proof.
  intros A0 r SB. destruct A0; cbn [sysb] in SB; try discriminate SB; [apply orb_prop in SB; destruct SB as [SB|SB]|]; apply areg_eqb_eq in SB; subst r; cbn; auto.
Qed.
Definition loads_b (k : nat) (e : env) (S : slots) : bool :=
  forallb (fun x => negb (Nat.eqb (fst x) k) || rv_eqb (e (ASlot k (snd x) (nty A (snd x)))) (S (snd x))) (h_loads (f_h f)) &&
  forallb (fun r => negb (sysb A r) || rv_eqb (e (ASlot k r (TInt 64))) (S r)) sysl.
Lemma loads_b_ok : forall k e S, loads_b k e S = true -> lds_ok c L k e S.
Proof.
  intros k e S F. unfold loads_b in F. apply andb_prop in F. destruct F as [F F']. split.
  2: { intros r SB. rewrite forallb_forall in F'. specialize (F' r (sysl_in _ _ SB)). rewrite SB in F'. cbn [negb orb] in F'. apply rv_eqb_eq in F'. exact F'. }
  intros r I0. rewrite forallb_forall in F. specialize (F _ I0). cbn [fst snd] in F.
  rewrite Nat.eqb_refl in F. cbn [negb orb] in F. apply rv_eqb_eq in F. split; [intro; exact F|]. intro. exists [], (seg_stores L k). split; [reflexivity|exact F].
Qed.
Definition init (k : nat) (l : list (atom * rv)) (pre : list (atom * rv)) (S : slots) (p : rv) (mem : bytes) : list (atom * rv) :=
  let pre := pre ++ map (fun x => (ASlot k (snd x) (nty A (snd x)), S (snd x))) (filter (fun x => Nat.eqb (fst x) k) (h_loads (f_h f))) ++
    map (fun r => (ASlot k r (TInt 64), S r)) (filter (sysb A) sysl) in
  let l' := guess (pre ++ l) p mem (code_of m k) in
  firstn (length l' - length l) l'.

(** The CPU struct after a call. *)
Definition slots_of (u : cpu) : slots :=
  fun r => match u_reg u r with Some z => if (0 <=? z) && (z <? 2 ^ tsize (nty A r)) then V (nty A r) z else Poison (nty A r) | None => Poison (nty A r) end.
Lemma slots_of_ok : forall u, slots_ok A (slots_of u).
Proof.
  intros u r. unfold slots_of. destruct (u_reg u r) as [z|]; [|split; [reflexivity|exact I]].
  destruct ((0 <=? z) && (z <? 2 ^ tsize (nty A r))) eqn:E; split; try reflexivity; try exact I. cbn [wf_rv]. unfold inr. lia.
Qed.
Definition ozb (a b : option Z) : bool := match a, b with Some x, Some y => x =? y | None, None => true | _, _ => false end.

Record ist := Ist { i_k : nat; i_l : list (atom * rv); i_S : slots; i_p : rv; i_m : bytes }.
Definition stepi (s : ist) : option ist :=
  let e := aenv (i_l s) in
  let k := i_k s in
  let S1 := end_slots L e (i_S s) k in
  match iseqb e (i_p s) (i_m s) (code_of m k) with
  | None => None
  | Some mem =>
    match m_term m k with
    | Some (TCall g x k') =>
      match vev e x with
      | Ok pv =>
        let u := c_ext c g (cpu_of S1 pv mem) in
        let S' := slots_of u in
        let d := init k' (i_l s) [] S' (pc_rv (u_pc u)) (u_mem u) in
        let l' := d ++ i_l s in
        if forallb (fun x => ozb (rbits (S' (fst x))) (u_reg u (fst x))) (reg_slots A) && forallb (fun r => negb (sysb A r) || ozb (rbits (S' r)) (u_reg u r)) sysl && forallb (fun x => owned k' (fst x)) d && loads_b k' (aenv l') S'
        then Some (Ist k' l' S' (pc_rv (u_pc u)) (u_mem u)) else None
      | _ => None
      end
    | Some t =>
      match next_blk e t with
      | Some (Ok b') =>
        match f_first f b' with
        | Some k' =>
          let b := f_bb f k in
          let here := filter (fun x => Nat.eqb (fst (fst x)) b') (l_phis L) in
          let pre := flat_map (fun x => match find (fun y => Nat.eqb (fst y) b) (snd x) with
                                        | Some (_, v) => match vev e (v_e v) with Ok w => [(APhi b' (snd (fst x)), w)] | _ => [] end
                                        | None => [] end) here in
          let pcv := if Nat.eqb b' exitb then match m_pcx m b with Some x => match vev e x with Ok w => [(AVar npc (TInt 64), w)] | _ => [] end | None => [] end else [] in
          let d := init k' (i_l s) (pre ++ pcv) S1 (i_p s) mem in
          let l' := d ++ i_l s in
          let e' := aenv l' in
          if forallb (fun x => owned k' (fst x)) d && loads_b k' e' S1 &&
             forallb (fun x => existsb (fun y => Nat.eqb (fst y) b && match vev e (v_e (snd y)) with Ok w => rv_eqb w (e' (APhi b' (snd (fst x)))) | _ => false end) (snd x)) here &&
             (negb (Nat.eqb b' exitb) || match m_pcx m b with Some x => match vev e x with Ok w => rv_eqb w (e' (AVar npc (TInt 64))) | _ => false end | None => false end)
          then Some (Ist k' l' S1 (i_p s) mem) else None
        | None => None
        end
      | _ => None
      end
    | None => None
    end
  end.
Definition starti (S0 : slots) (p0 : rv) (m0 : bytes) : option ist :=
  let d := init 0 [] [] S0 p0 m0 in if loads_b 0 (aenv d) S0 then Some (Ist 0 d S0 p0 m0) else None.
(** The register file at whose end the function returns, and what it returns with. *)
Fixpoint runi (n : nat) (s : ist) : option (nat * (slots * rv * bytes)) :=
  match n with
  | O => None
  | S n =>
    match m_term m (i_k s) with
    | Some (TRet x) =>
      match iseqb (aenv (i_l s)) (i_p s) (i_m s) (code_of m (i_k s)), vev (aenv (i_l s)) x with
      | Some mem, Ok p => Some (i_k s, (end_slots L (aenv (i_l s)) (i_S s) (i_k s), p, mem))
      | _, _ => None
      end
    | _ => match stepi s with Some s' => runi n s' | None => None end
    end
  end.
Definition calli_at (n : nat) (S0 : slots) (p0 : rv) (m0 : bytes) : option (nat * (slots * rv * bytes)) :=
  match starti S0 p0 m0 with Some s => runi n s | None => None end.
Definition calli (n : nat) (S0 : slots) (p0 : rv) (m0 : bytes) : option (slots * rv * bytes) := option_map snd (calli_at n S0 p0 m0).

Variables (S0 : slots) (p0 : rv) (m0 : bytes).
Definition good (s : ist) : Prop := irun c m npc L S0 p0 m0 (i_k s) (aenv (i_l s)) (i_S s) (i_p s) (i_m s).
Lemma starti_ok : forall s, slots_ok A S0 -> starti S0 p0 m0 = Some s -> good s.
Proof.
  intros s SO E. unfold starti in E. destruct (loads_b 0 _ S0) eqn:Q; [|discriminate]. injection E as <-. apply loads_b_ok in Q.
  unfold good; cbn [i_k i_l i_S i_p i_m]. constructor; [apply aenv_ok|assumption|exact Q].
Qed.
Lemma stepi_ok : forall s s', good s -> stepi s = Some s' -> good s'.
Proof.
  intros s s' G E. unfold stepi in E. destruct (iseqb _ _ _ _) as [mem|] eqn:IS; [|discriminate]. apply iseqb_ok in IS.
  destruct (m_term m (i_k s)) as [t|] eqn:MT; [|discriminate].
  assert (BR : match t with TBr _ | TCond _ _ _ => True | TRet _ => next_blk (aenv (i_l s)) t = None | TCall _ _ _ => True end) by (destruct t; cbn; auto).
  assert (CA : (exists g x k', t = TCall g x k') \/ (forall g x k', t <> TCall g x k')) by (destruct t; [right|right|left|right]; try (do 3 eexists; reflexivity); intros; discriminate).
  destruct CA as [(g & x & k' & ->)|NC].
  - destruct (vev (aenv (i_l s)) x) as [pv| |] eqn:PV; try discriminate. cbv zeta in E.
    match type of E with (if ?b then _ else _) = _ => destruct b eqn:Q; [|discriminate] end. injection E as <-.
    apply andb_prop in Q. destruct Q as [Q Q3]. apply andb_prop in Q. destruct Q as [Q1 Q2]. apply andb_prop in Q1. destruct Q1 as [Q1 Q1']. apply loads_b_ok in Q3.
    unfold good. cbn [i_k i_l i_S i_p i_m].
    eapply (ir_call c m npc L S0 p0 m0 (i_k s) (aenv (i_l s)) (i_S s) (i_p s) (i_m s) mem g x pv k'); [exact G|exact IS|exact MT|exact PV|apply aenv_ok|apply slots_of_ok| | |exact Q3].
    + intros r [MR|SB].
      2: { rewrite forallb_forall in Q1'. specialize (Q1' r (sysl_in _ _ SB)). rewrite SB in Q1'. cbn [negb orb] in Q1'.
           unfold ozb in Q1'. destruct (rbits _), (u_reg _ r); try discriminate Q1'; try reflexivity. apply Z.eqb_eq in Q1'. congruence. }
      rewrite forallb_forall in Q1. unfold mapped in MR. apply in_map_iff in MR. destruct MR as ([r' ft] & <- & I0). specialize (Q1 _ I0). cbn [fst] in Q1 |- *.
      unfold ozb in Q1. destruct (rbits _), (u_reg _ r'); try discriminate; try reflexivity. apply Z.eqb_eq in Q1. congruence.
    + intros a N. apply (aenv_app k'); assumption.
  - assert (E' : match next_blk (aenv (i_l s)) t with Some (Ok b') => True | _ => False end).
    { destruct t as [tb|tx tb to|tg tx tk|tx]; try (exfalso; eapply NC; reflexivity); destruct (next_blk _ _) as [[bb| |]|]; try discriminate; exact I. }
    destruct (next_blk (aenv (i_l s)) t) as [[b'| |]|] eqn:NB; try contradiction. clear E'.
    assert (EE : match f_first f b' with Some k' =>
          let b := f_bb f (i_k s) in
          let here := filter (fun x => Nat.eqb (fst (fst x)) b') (l_phis L) in
          exists d, let e' := aenv (d ++ i_l s) in let S1 := end_slots L (aenv (i_l s)) (i_S s) (i_k s) in
            forallb (fun x => owned k' (fst x)) d = true /\ loads_b k' e' S1 = true /\
            forallb (fun x => existsb (fun y => Nat.eqb (fst y) b && match vev (aenv (i_l s)) (v_e (snd y)) with Ok w => rv_eqb w (e' (APhi b' (snd (fst x)))) | _ => false end) (snd x)) here = true /\
            (negb (Nat.eqb b' exitb) || match m_pcx m b with Some x => match vev (aenv (i_l s)) x with Ok w => rv_eqb w (e' (AVar npc (TInt 64))) | _ => false end | None => false end) = true /\
            s' = Ist k' (d ++ i_l s) S1 (i_p s) mem
          | None => False end).
    { destruct t as [tb|tx tb to|tg tx tk|tx]; try (exfalso; eapply NC; reflexivity); (destruct (f_first f b') as [k'|]; [|discriminate]); cbv zeta in E |- *;
      match type of E with (if ?b then _ else _) = _ => destruct b eqn:Q; [|discriminate] end; injection E as <-;
      apply andb_prop in Q; destruct Q as [Q Q4]; apply andb_prop in Q; destruct Q as [Q Q3]; apply andb_prop in Q; destruct Q as [Q1 Q2];
      eexists; repeat (split; [eassumption|]); reflexivity. }
    clear E. destruct (f_first f b') as [k'|] eqn:FF; [|contradiction]. cbv zeta in EE. destruct EE as (d & Q1 & Q2 & Q3 & Q4 & ->).
    apply loads_b_ok in Q2. unfold good. cbn [i_k i_l i_S i_p i_m].
    eapply (ir_branch c m npc L S0 p0 m0 (i_k s) (aenv (i_l s)) (i_S s) (i_p s) (i_m s) mem t (f_bb f (i_k s)) b' k'); [exact G|exact IS|exact MT|exact NB|reflexivity|exact FF|apply aenv_ok| | | |exact Q2].
    + intros a N. apply (aenv_app k'); assumption.
    + intros r inc I0. rewrite forallb_forall in Q3. specialize (Q3 (b', r, inc)). cbn [fst snd] in Q3.
      assert (IF : In (b', r, inc) (filter (fun x => Nat.eqb (fst (fst x)) b') (l_phis L))) by (apply filter_In; split; [exact I0|apply Nat.eqb_refl]).
      specialize (Q3 IF). apply existsb_exists in Q3. destruct Q3 as ([j v] & I1 & Q). cbn [fst snd] in Q. apply andb_prop in Q. destruct Q as [QA QB].
      apply Nat.eqb_eq in QA. subst j. exists v. split; [exact I1|]. destruct (vev (aenv (i_l s)) (v_e v)) as [w| |]; try discriminate. apply rv_eqb_eq in QB. congruence.
    + intros ->. rewrite Nat.eqb_refl in Q4. cbn [negb orb] in Q4. destruct (m_pcx m _) as [x|]; [|discriminate]. exists x. split; [reflexivity|].
      destruct (vev (aenv (i_l s)) x) as [w| |]; try discriminate. apply rv_eqb_eq in Q4. congruence.
Qed.
Lemma calli_at_ok : forall n k S p mem, slots_ok A S0 -> calli_at n S0 p0 m0 = Some (k, (S, p, mem)) -> ireturn_at c m npc L S0 p0 m0 k S p mem.
Proof.
  intros n k S p mem SO E. unfold calli_at in E. destruct (starti S0 p0 m0) as [s|] eqn:ST; [|discriminate]. apply starti_ok in ST; [|exact SO].
  revert s ST E. induction n as [|n IH]; intros s G E; [discriminate|]. cbn [runi] in E.
  assert (X : (exists x, m_term m (i_k s) = Some (TRet x)) \/ (exists s', stepi s = Some s' /\ runi n s' = Some (k, (S, p, mem)))).
  { destruct (m_term m (i_k s)) as [[]|]; try (left; eexists; reflexivity); right; destruct (stepi s) as [s'|]; try discriminate; exists s'; auto. }
  destruct X as [(x & MT)|(s' & SS & RR)].
  - rewrite MT in E. destruct (iseqb _ _ _ _) as [mm|] eqn:IS; [|discriminate]. destruct (vev _ x) as [q| |] eqn:PV; try discriminate.
    injection E as <- <- <- <-. apply iseqb_ok in IS. exists (aenv (i_l s)), (i_S s), (i_p s), (i_m s), x. unfold good in G. auto.
  - apply (IH s'); [|exact RR]. eapply stepi_ok; eassumption.
Qed.
Lemma calli_ok : forall n S p mem, slots_ok A S0 -> calli n S0 p0 m0 = Some (S, p, mem) -> ireturn c m npc L S0 p0 m0 S p mem.
Proof.
  intros n S p mem SO E. unfold calli in E. destruct (calli_at n S0 p0 m0) as [[k x]|] eqn:Q; [|discriminate]. injection E as ->.
  exists k. exact (calli_at_ok n k S p mem SO Q).
Qed.
End Exec.
