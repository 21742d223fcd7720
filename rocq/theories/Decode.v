(** Decoding a function: model of /repo/src/lldecoder.cc:156-232 Function::Decode
    and of the decoded state in /repo/src/function.h:66-96. *)

From Coq Require Import ZArith Lia ZifyBool List Bool Arith.
From Verif Require Import Bits.
Import ListNotations.
Open Scope Z_scope.

(** lldecoder.cc:36-42 InstrKind. *)
Inductive kind := KBranch | KCond | KCall | KUnknown | KOther.
(** function.h:54-58 DecodeStop. *)
Inductive mode := MInstr | MBlock | MAll.

(** Addresses are uint64_t. *)
Definition add64 (a b : Z) : Z := trunc 64 (a + b).
(** The two key values llvm::DenseMap<uint64_t, ...> reserves (DenseMapInfo): looking
    one up violates an assertion. *)
Definition reserved (a : Z) : bool := (a =? 2^64 - 1) || (a =? 2^64 - 2).

Section Dec.
(** Decoded instructions with their length (instr.h:154-157) and classification
    (lldecoder.cc:45-152: kind and direct branch target or 0). *)
Variable Ins : Type.
Variable ilen : Ins -> Z.
Variable icls : Ins -> kind * Z.

(** function.h:72-78 DecodedInstr. [d_fall] and [d_tgt] are ghosts: whether Decode
    counted an edge to the next instruction or to the branch target. *)
Record dinst := DI { d_i : Ins; d_start : Z; d_new : bool; d_inh : bool; d_fall : bool; d_tgt : bool }.
Definition set_new (d : dinst) : dinst := DI (d_i d) (d_start d) true (d_inh d) (d_fall d) (d_tgt d).
Definition d_end (d : dinst) : Z := add64 (d_start d) (ilen (d_i d)).
Definition d_kind (d : dinst) : kind := fst (icls (d_i d)).
Definition d_to (d : dinst) : Z := snd (icls (d_i d)).

(** function.h:82-88 InstrMapEntry. A default entry stands for a missing one
    (operator[] and try_emplace create default entries). *)
Record entry := Entry { e_preds : nat; e_dec : bool; e_idx : nat }.
Definition entry0 : entry := Entry 0 false 0.

(** function.h:80-91: the fields of Function, and the local variables of Decode:
    the address stack (top first) and, inside the inner loop, (start_addr,
    cur_addr, new_block). *)
Record dst := DS {
  f_ins : list dinst;
  f_map : Z -> entry;
  f_ranges : list (Z * Z);
  f_stack : list Z;
  f_cur : option (Z * Z * bool);
}.
(** function.h:91 the initial sentinel. *)
Definition dst0 : dst := DS [] (fun _ => entry0) [(0, 0)] [] None.

Fixpoint mark (n : nat) (l : list dinst) {struct l} : list dinst :=
  match l, n with
  | [], _ => []
  | d :: l', O => set_new d :: l'
  | d :: l', S n' => d :: mark n' l'
  end.
Definition upd_map (m : Z -> entry) (a : Z) (e : entry) : Z -> entry := fun b => if a =? b then e else m b.
Definition inc_preds (m : Z -> entry) (a : Z) : Z -> entry :=
  let e := m a in upd_map m a (Entry (S (e_preds e)) (e_dec e) (e_idx e)).

(** lldecoder.cc:225: insertion before the sentinel. *)
Fixpoint ins_range (l : list (Z * Z)) (r : Z * Z) : list (Z * Z) :=
  match l with
  | [] => [r]
  | [x] => [r; x]
  | x :: l' => x :: ins_range l' r
  end.

Inductive outcome := Done (s : dst) | Next (s : dst) | Bad.

Section Run.
(** Outcome of the memory reader and the decoder at an address (trusted oracle,
    fixed during one call of Decode), stop mode, and whether a call function is
    configured. *)
Variable dec : Z -> option Ins.
Variable m : mode.
Variable cf : bool.

(** lldecoder.cc:224-227: end of the inner loop. *)
Definition finish (ins : list dinst) (mp : Z -> entry) (rg : list (Z * Z)) (stk : list Z) (start cur : Z) : outcome :=
  Next (DS ins mp (if cur =? start then rg else ins_range rg (start, cur))
           (match m with MBlock => [] | _ => stk end) None).

(** lldecoder.cc:205-206: does decoding end after an instruction of this kind? *)
Definition ends (k : kind) : bool :=
  match k with KBranch | KUnknown => true | KCall => negb cf | _ => false end.
Definition starts_block (k : kind) : bool := match k with KCond | KCall => true | _ => false end.
(** lldecoder.cc:205-219: is the edge to the following instruction counted? *)
Definition falls (k : kind) : bool :=
  negb (ends k) && negb (match m with MBlock => starts_block k | _ => false end).

(** lldecoder.cc:161-229, one iteration: of the outer loop up to the inner loop if
    [f_cur] is [None], else of the inner loop. *)
Definition step (s : dst) : outcome :=
  match f_cur s with
  | None =>
    match f_stack s with
    | [] => Done s
    | a :: stk => if reserved a then Bad else Next (DS (f_ins s) (f_map s) (f_ranges s) stk (Some (a, a, true)))
    end
  | Some (start, cur, nb) =>
    let e := f_map s cur in
    if e_dec e then finish (mark (e_idx e) (f_ins s)) (f_map s) (f_ranges s) (f_stack s) start cur
    else match dec cur with
    | None => finish (f_ins s) (f_map s) (f_ranges s) (f_stack s) start cur
    | Some i =>
      let cur' := add64 cur (ilen i) in
      let mp1 := upd_map (f_map s) cur (Entry (e_preds e) true (length (f_ins s))) in
      match m with
      | MInstr => finish (f_ins s ++ [DI i cur nb false false false]) mp1 (f_ranges s) (f_stack s) start cur'
      | _ =>
        let (k, t) := icls i in
        let d := DI i cur nb (match k with KCall => negb cf | _ => false end) (falls k) (negb (t =? 0)) in
        let ins1 := f_ins s ++ [d] in
        if negb (t =? 0) && reserved t then Bad else
        let '(ins2, mp2, stk2) :=
          if t =? 0 then (ins1, mp1, f_stack s)
          else (if e_dec (mp1 t) then mark (e_idx (mp1 t)) ins1 else ins1, inc_preds mp1 t,
                if e_dec (mp1 t) then f_stack s else t :: f_stack s) in
        if falls k then
          if reserved cur' then Bad
          else Next (DS ins2 (inc_preds mp2 cur') (f_ranges s) stk2 (Some (start, cur', starts_block k)))
        else finish ins2 mp2 (f_ranges s) stk2 start cur'
      end
    end
  end.

(** The two nested loops, lldecoder.cc:161-230; [n] bounds the iterations. *)
Fixpoint iter (n : nat) (s : dst) : option (option dst) :=
  match n with
  | O => None
  | S n' => match step s with Done s => Some (Some s) | Next s => iter n' s | Bad => Some None end
  end.
(** lldecoder.cc:156-160: [Some (Some s)]: finished; [Some None]: assertion
    violated; [None]: still running after [n] iterations. *)
Definition decode (n : nat) (s : dst) (addr : Z) : option (option dst) :=
  iter n (DS (f_ins s) (f_map s) (f_ranges s) [addr] None).
End Run.

(** ** Invariants *)
Lemma nth_mark : forall l n i, nth_error (mark n l) i =
  match nth_error l i with Some d => Some (if Nat.eqb i n then set_new d else d) | None => None end.
Proof.
  induction l as [|d l IH]; intros n i; [destruct n, i; reflexivity|].
  destruct n, i; cbn [mark nth_error Nat.eqb]; try reflexivity.
  - destruct (nth_error l i); reflexivity.
  - apply IH.
Qed.
Lemma mark_length : forall l n, length (mark n l) = length l.
Proof. induction l as [|d l IH]; intros [|n]; cbn; auto. Qed.

(** Number of counted edges into [a]. *)
Definition edges (a : Z) (d : dinst) : nat :=
  ((if d_tgt d && (d_to d =? a)%Z then 1 else 0) + (if d_fall d && (d_end d =? a)%Z then 1 else 0))%nat.
Definition count (a : Z) (l : list dinst) : nat := list_sum (map (edges a) l).
Lemma count_app : forall a l d, count a (l ++ [d]) = (count a l + edges a d)%nat.
Proof. intros. unfold count. rewrite map_app, list_sum_app. cbn. lia. Qed.
Lemma edges_set_new : forall a d, edges a (set_new d) = edges a d.
Proof. reflexivity. Qed.
Lemma count_mark : forall a l n, count a (mark n l) = count a l.
Proof.
  intros a. induction l as [|d l IH]; intros [|n]; try reflexivity. unfold count in *. cbn [mark map list_sum fold_right].
  cbn. specialize (IH n). unfold list_sum in IH. rewrite IH. reflexivity.
Qed.

Definition tail_ok (l : list dinst) (cur : Z) : Prop :=
  exists l0 d, l = l0 ++ [d] /\ d_end d = cur /\ d_kind d = KOther /\ d_fall d = true.

Record inv (s : dst) : Prop := {
  (* the map and the list describe the same instructions *)
  v_dec : forall a, e_dec (f_map s a) = true -> exists d, nth_error (f_ins s) (e_idx (f_map s a)) = Some d /\ d_start d = a;
  v_ins : forall i d, nth_error (f_ins s) i = Some d -> e_dec (f_map s (d_start d)) = true /\ e_idx (f_map s (d_start d)) = i;
  (* an instruction inside a block follows one that continues there *)
  v_run : forall i d, nth_error (f_ins s) i = Some d -> d_new d = false ->
          exists j d', i = S j /\ nth_error (f_ins s) j = Some d' /\ d_end d' = d_start d /\ d_kind d' = KOther /\ d_fall d' = true;
  v_cur : forall start cur, f_cur s = Some (start, cur, false) -> tail_ok (f_ins s) cur;
  v_cnt : forall a, e_preds (f_map s a) = count a (f_ins s);
}.

Lemma inv0 : inv dst0.
Proof.
  split; cbn; try discriminate; try reflexivity; intros i d X; destruct i; discriminate.
Qed.

Lemma tail_mark : forall l n c, tail_ok l c -> tail_ok (mark n l) c.
Proof.
  intros l n c (l0 & d & E & X1 & X2 & X3). rewrite E.
  assert (Q : exists d', mark n (l0 ++ [d]) = mark n l0 ++ [d'] /\ (d' = d \/ d' = set_new d)).
  { clear. revert n. induction l0 as [|x l0 IH]; intros n.
    - destruct n; cbn; [exists (set_new d)|exists d]; auto.
    - destruct n; cbn; [exists d; auto|]. destruct (IH n) as (d' & E & O). exists d'. rewrite E. auto. }
  destruct Q as (d' & -> & O). exists (mark n l0), d'. split; [reflexivity|]. destruct O as [->| ->]; auto.
Qed.

(** Marking a block start. *)
Lemma inv_mark : forall s n c r, inv s -> (forall start cur, c = Some (start, cur, false) -> tail_ok (f_ins s) cur) ->
  inv (DS (mark n (f_ins s)) (f_map s) r (f_stack s) c).
Proof.
  intros s n c r V C. split; cbn.
  - intros a D. destruct (v_dec _ V a D) as (d & N & E). rewrite nth_mark, N. eexists. split; [reflexivity|].
    destruct (Nat.eqb _ n); assumption.
  - intros i d N. rewrite nth_mark in N. destruct (nth_error (f_ins s) i) as [d0|] eqn:N0; [|discriminate]. injection N as <-.
    destruct (v_ins _ V i d0 N0). destruct (Nat.eqb i n); auto.
  - intros i d N F. rewrite nth_mark in N. destruct (nth_error (f_ins s) i) as [d0|] eqn:N0; [|discriminate]. injection N as <-.
    destruct (Nat.eqb i n) eqn:Q; [discriminate|].
    destruct (v_run _ V i d0 N0 F) as (j & d' & -> & N' & E & K & L). exists j.
    exists (if Nat.eqb j n then set_new d' else d'). rewrite nth_mark, N'. split; [reflexivity|]. split; [reflexivity|].
    destruct (Nat.eqb j n); auto.
  - intros start cur Q. apply tail_mark. exact (C start cur Q).
  - intros a. etransitivity; [apply (v_cnt _ V)|]. symmetry. apply count_mark.
Qed.
(** Appending a decoded instruction, with its edges not yet in the map. *)
Definition pre_inv (l : list dinst) (mp : Z -> entry) : Prop :=
  (forall a, e_dec (mp a) = true -> exists d, nth_error l (e_idx (mp a)) = Some d /\ d_start d = a) /\
  (forall i d, nth_error l i = Some d -> e_dec (mp (d_start d)) = true /\ e_idx (mp (d_start d)) = i) /\
  (forall i d, nth_error l i = Some d -> d_new d = false ->
          exists j d', i = S j /\ nth_error l j = Some d' /\ d_end d' = d_start d /\ d_kind d' = KOther /\ d_fall d' = true).
Lemma nth_snoc : forall T (l : list T) x i y, nth_error (l ++ [x]) i = Some y -> (nth_error l i = Some y /\ (i < length l)%nat) \/ (i = length l /\ y = x).
Proof.
  intros T l x i y N. destruct (Nat.lt_ge_cases i (length l)).
  - rewrite nth_error_app1 in N by assumption. auto.
  - rewrite nth_error_app2 in N by assumption. right. destruct (i - length l)%nat as [|k] eqn:Q; cbn in N; [injection N as <-; split; [lia|reflexivity]|].
    destruct k; discriminate.
Qed.
Lemma pre_append : forall s start cur nb d, inv s -> f_cur s = Some (start, cur, nb) -> e_dec (f_map s cur) = false ->
  d_start d = cur -> d_new d = nb ->
  pre_inv (f_ins s ++ [d]) (upd_map (f_map s) cur (Entry (e_preds (f_map s cur)) true (length (f_ins s)))).
Proof.
  intros s start cur nb d V C ND SD NB. unfold upd_map. repeat split.
  - intros a D. destruct (Z.eqb_spec cur a) as [Q|Q]; cbn [e_idx] in *.
    + exists d. split; [|congruence]. rewrite nth_error_app2, Nat.sub_diag by lia. reflexivity.
    + destruct (v_dec _ V a D) as (d0 & N & E). exists d0. split; [|assumption].
      rewrite nth_error_app1; [assumption|]. apply nth_error_Some. congruence.
  - apply nth_snoc in H. destruct H as [[N L]|[-> ->]].
    + destruct (Z.eqb_spec cur (d_start d0)); [reflexivity|]. apply (v_ins _ V i d0 N).
    + rewrite SD, Z.eqb_refl. reflexivity.
  - apply nth_snoc in H. destruct H as [[N L]|[-> ->]].
    + destruct (v_ins _ V i d0 N) as [X Y]. destruct (Z.eqb_spec cur (d_start d0)) as [Q|]; [|assumption]. congruence.
    + rewrite SD, Z.eqb_refl. reflexivity.
  - intros i d0 N F. apply nth_snoc in N. destruct N as [[N L]|[-> ->]].
    + destruct (v_run _ V i d0 N F) as (j & d' & -> & N' & X). exists j, d'. split; [reflexivity|]. split; [|assumption].
      rewrite nth_error_app1; [assumption|]. lia.
    + rewrite F in NB. subst nb. destruct (v_cur _ V start cur C) as (l0 & d' & E & X1 & X2 & X3).
      exists (length l0), d'. rewrite E, app_length. cbn [length]. split; [lia|]. split; [|rewrite SD; auto].
      rewrite <- app_assoc, nth_error_app2, Nat.sub_diag by lia. reflexivity.
Qed.
Lemma pre_inc : forall l mp a, pre_inv l mp -> pre_inv l (inc_preds mp a).
Proof.
  intros l mp a (P1 & P2 & P3). unfold inc_preds, upd_map. repeat split.
  - intros b. destruct (Z.eqb_spec a b) as [->|]; cbn; apply P1.
  - destruct (Z.eqb_spec a (d_start d)) as [Q|]; cbn; [rewrite Q|]; apply (P2 i d H).
  - destruct (Z.eqb_spec a (d_start d)) as [Q|]; cbn; [rewrite Q|]; apply (P2 i d H).
  - assumption.
Qed.
Lemma pre_mark : forall l mp n, pre_inv l mp -> pre_inv (mark n l) mp.
Proof.
  intros l mp n (P1 & P2 & P3). repeat split.
  - intros a D. destruct (P1 a D) as (d & N & E). rewrite nth_mark, N. eexists. split; [reflexivity|].
    destruct (Nat.eqb _ n); assumption.
  - rewrite nth_mark in H. destruct (nth_error l i) as [d0|] eqn:N0; [|discriminate]. injection H as <-.
    destruct (P2 i d0 N0). destruct (Nat.eqb i n); auto.
  - rewrite nth_mark in H. destruct (nth_error l i) as [d0|] eqn:N0; [|discriminate]. injection H as <-.
    destruct (P2 i d0 N0). destruct (Nat.eqb i n); auto.
  - intros i d N F. rewrite nth_mark in N. destruct (nth_error l i) as [d0|] eqn:N0; [|discriminate]. injection N as <-.
    destruct (Nat.eqb i n) eqn:Q; [discriminate|].
    destruct (P3 i d0 N0 F) as (j & d' & -> & N' & E & K & L). exists j.
    exists (if Nat.eqb j n then set_new d' else d'). rewrite nth_mark, N'. split; [reflexivity|]. split; [reflexivity|].
    destruct (Nat.eqb j n); auto.
Qed.
Lemma inv_of_pre : forall l mp r stk c, pre_inv l mp -> (forall start cur, c = Some (start, cur, false) -> tail_ok l cur) ->
  (forall a, e_preds (mp a) = count a l) -> inv (DS l mp r stk c).
Proof. intros l mp r stk c (P1 & P2 & P3) C N. split; cbn; assumption. Qed.

Lemma preds_inc : forall mp a b, e_preds (inc_preds mp a b) = (e_preds (mp b) + (if (a =? b)%Z then 1 else 0))%nat.
Proof. intros mp a b. unfold inc_preds, upd_map. destruct (Z.eqb_spec a b) as [->|]; cbn; lia. Qed.
(** The invariant holds throughout. *)
Lemma step_inv : forall dec m cf s, inv s ->
  match step dec m cf s with Next s' | Done s' => inv s' | Bad => True end.
Proof.
  intros dec m cf s V. unfold step. destruct (f_cur s) as [[[start cur] nb]|] eqn:C.
  - destruct (e_dec (f_map s cur)) eqn:D.
    + unfold finish. apply (inv_mark (DS (f_ins s) (f_map s) (f_ranges s) _ (f_cur s))); [|discriminate].
      destruct V. split; cbn; assumption.
    + destruct (dec cur) as [i|]; [|unfold finish; destruct V; split; cbn; try assumption; discriminate].
      set (mp1 := upd_map _ _ _).
      assert (PR : forall a, e_preds (mp1 a) = count a (f_ins s)).
      { intros a. subst mp1. unfold upd_map. destruct (Z.eqb_spec cur a) as [Q|]; cbn [e_preds]; rewrite ?Q; apply (v_cnt _ V). }
      assert (MI : inv (DS (f_ins s ++ [DI i cur nb false false false]) mp1 (if add64 cur (ilen i) =? start then f_ranges s else ins_range (f_ranges s) (start, add64 cur (ilen i))) (f_stack s) None)).
      { apply inv_of_pre; [eapply pre_append; eauto|discriminate|]. intros a. rewrite count_app, PR. cbn. lia. }
      assert (MAIN : match (let (k, t) := icls i in
        let d := DI i cur nb (match k with KCall => negb cf | _ => false end) (falls m cf k) (negb (t =? 0)) in
        let ins1 := f_ins s ++ [d] in
        if negb (t =? 0) && reserved t then Bad else
        let '(ins2, mp2, stk2) :=
          if t =? 0 then (ins1, mp1, f_stack s)
          else (if e_dec (mp1 t) then mark (e_idx (mp1 t)) ins1 else ins1, inc_preds mp1 t,
                if e_dec (mp1 t) then f_stack s else t :: f_stack s) in
        if falls m cf k then
          if reserved (add64 cur (ilen i)) then Bad
          else Next (DS ins2 (inc_preds mp2 (add64 cur (ilen i))) (f_ranges s) stk2 (Some (start, add64 cur (ilen i), starts_block k)))
        else finish m ins2 mp2 (f_ranges s) stk2 start (add64 cur (ilen i))) with Next s' | Done s' => inv s' | Bad => True end).
      { destruct (icls i) as [k t] eqn:IC. cbv zeta. set (d := DI i cur nb _ _ _). set (l1 := f_ins s ++ [d]).
        destruct (negb (t =? 0) && reserved t); [exact I|].
        assert (P1 : pre_inv l1 mp1) by (eapply pre_append; eauto).
        set (x := if t =? 0 then _ else _).
        assert (X : let '(l2, mp2, stk2) := x in pre_inv l2 mp2 /\
                    (forall a, e_preds (mp2 a) = (count a (f_ins s) + (if d_tgt d && (d_to d =? a)%Z then 1 else 0))%nat) /\
                    (forall a, count a l2 = (count a (f_ins s) + edges a d)%nat) /\
                    (falls m cf k = true -> starts_block k = false -> tail_ok l2 (add64 cur (ilen i)))).
        { assert (TK : falls m cf k = true -> starts_block k = false -> tail_ok l1 (add64 cur (ilen i))).
          { intros F SB. exists (f_ins s), d. split; [reflexivity|]. split; [reflexivity|]. split; [|assumption].
            unfold d_kind. cbn. rewrite IC. cbn. destruct k; cbn in F, SB; try discriminate; reflexivity. }
          subst x. destruct (Z.eqb_spec t 0) as [T0|T0].
          - split; [assumption|]. split; [|split; [intros; apply count_app|assumption]].
            intros a. rewrite PR. subst d. cbn. lia.
          - split; [|split; [|split]].
            + apply pre_inc. destruct (e_dec (mp1 t)); [apply pre_mark|]; assumption.
            + intros a. rewrite preds_inc, PR. unfold d_to, d. cbn [d_i d_tgt]. rewrite IC. cbn [snd]. reflexivity.
            + intros a. destruct (e_dec (mp1 t)); rewrite ?count_mark; apply count_app.
            + intros F SB. destruct (e_dec (mp1 t)); [apply tail_mark|]; auto. }
        destruct x as [[l2 mp2] stk2]. destruct X as (X1 & X2 & X3 & X4).
        destruct (falls m cf k) eqn:F.
        - destruct (reserved (add64 cur (ilen i))); [exact I|]. apply inv_of_pre.
          + apply pre_inc. assumption.
          + intros st c Q. injection Q as <- <- SB. apply X4; [reflexivity|assumption].
          + intros a. rewrite preds_inc, X2, X3. unfold edges. subst d. cbn [d_fall]. unfold d_end. cbn [d_start d_i]. rewrite ?F. cbn [andb]. lia.
        - unfold finish. apply inv_of_pre; [assumption|discriminate|].
          intros a. rewrite X2, X3. unfold edges. subst d. cbn [d_fall]. rewrite ?F. cbn [andb]. lia. }
      destruct m; [exact MI|exact MAIN|exact MAIN].
  - destruct (f_stack s) as [|a stk]; [assumption|]. destruct (reserved a); [exact I|].
    destruct V. split; cbn; try assumption. intros st c Q. discriminate.
Qed.
Lemma iter_inv : forall dec m cf n s s', inv s -> iter dec m cf n s = Some (Some s') -> inv s'.
Proof.
  intros dec m cf. induction n as [|n IH]; intros s s' V X; [discriminate|]. cbn [iter] in X.
  pose proof (step_inv dec m cf s V) as S1. destruct (step dec m cf s); [injection X as <-; assumption|eauto|discriminate].
Qed.
(** ... for any sequence of calls. *)
Inductive decoded : dst -> Prop :=
| decoded0 : decoded dst0
| decoded1 : forall s dec m cf n a s', decoded s -> decode dec m cf n s a = Some (Some s') -> decoded s'.
Lemma decoded_inv : forall s, decoded s -> inv s.
Proof.
  intros s D. induction D as [|s dec m cf n a s' _ IH X]; [apply inv0|].
  eapply iter_inv; [|exact X]. destruct IH. split; cbn; try assumption. discriminate.
Qed.
End Dec.
