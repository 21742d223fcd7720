(** Properties C13-C16: decoding, for every memory contents, instruction set and
    control flow graph. *)

From Coq Require Import ZArith Lia ZifyBool List Bool.
From Verif Require Import Bits IR Facet Dsl Rv64 Decode DecodeOk DecodeRv.
Import ListNotations.
Open Scope Z_scope.

(** C13. After any sequence of ll_func_decode_cfg calls at the entry points [E]
    exactly the decodable addresses reachable from them by direct branches and
    fall-through were decoded. (For calls that return; an assertion is violated if a
    reachable address is one of the two keys llvm::DenseMap reserves, see
    decode_outcome and decode_reserved_refuted.) *)
Theorem decode_exact : forall Ins ilen icls dec cf E s, calls Ins ilen icls dec cf E s ->
  forall a, (exists d, In d (f_ins _ s) /\ d_start _ d = a) <-> (reach Ins ilen icls dec cf E a /\ dec a <> None).
Proof. intros. eapply calls_exact; eassumption. Qed.
Print Assumptions decode_exact.
(** Each recorded instruction is the one decoded at its address. *)
Theorem decode_faithful : forall Ins ilen icls dec cf E s, calls Ins ilen icls dec cf E s ->
  forall d, In d (f_ins _ s) -> dec (d_start _ d) = Some (d_i _ d).
Proof.
  intros * D d I0. destruct (calls_cinv _ _ _ _ _ _ _ D) as [C _].
  apply In_nth_error in I0. destruct I0 as [i N]. apply (c_ins _ _ _ _ _ _ _ C i d N).
Qed.
Print Assumptions decode_faithful.
(** Each address is recorded at most once, whatever sequence of decode calls (any
    mode, changing memory contents and configuration) was made. *)
Theorem decode_once : forall Ins ilen icls s, decoded Ins ilen icls s -> NoDup (map (d_start Ins) (f_ins _ s)).
Proof.
  intros Ins ilen icls s D. pose proof (decoded_inv _ _ _ _ D) as V. apply NoDup_nth_error. intros i j LI EQ.
  rewrite map_length in LI. rewrite !nth_error_map in EQ.
  destruct (nth_error (f_ins Ins s) i) as [d|] eqn:NI; [|apply nth_error_None in NI; lia].
  destruct (nth_error (f_ins Ins s) j) as [d'|] eqn:NJ; [|discriminate]. cbn in EQ. injection EQ as EQ.
  destruct (v_ins _ _ _ _ V i d NI) as [_ <-]. destruct (v_ins _ _ _ _ V j d' NJ) as [_ <-]. congruence.
Qed.
Print Assumptions decode_once.
(** A further call comes to an end if finitely many addresses are reachable: it returns,
    or an assertion of llvm::DenseMap is violated because a reachable address is one of
    its two reserved keys. *)
Theorem decode_outcome : forall Ins ilen icls dec cf E s a U, calls Ins ilen icls dec cf E s ->
  (forall b, reach Ins ilen icls dec cf (a :: E) b -> In b U) ->
  exists n, (exists s', decode Ins ilen icls dec MAll cf n s a = Some (Some s')) \/
    (decode Ins ilen icls dec MAll cf n s a = Some None /\ exists b, reach Ins ilen icls dec cf (a :: E) b /\ (b = 2^64 - 1 \/ b = 2^64 - 2)).
Proof.
  intros * D RU. destruct (calls_total Ins ilen icls dec cf E s a U D RU) as [n [X|[X (b & R & RV)]]]; exists n; [left; exact X|right].
  split; [exact X|]. exists b. split; [exact R|]. unfold reserved in RV. apply orb_prop in RV. destruct RV as [RV|RV]; apply Z.eqb_eq in RV; auto.
Qed.
Print Assumptions decode_outcome.
Theorem decode_terminates : forall Ins ilen icls dec cf E s a U, calls Ins ilen icls dec cf E s ->
  (forall b, reach Ins ilen icls dec cf (a :: E) b -> In b U) ->
  (forall b, reach Ins ilen icls dec cf (a :: E) b -> reserved b = false) ->
  exists n s', decode Ins ilen icls dec MAll cf n s a = Some (Some s').
Proof.
  intros * D RU RS. destruct (calls_total Ins ilen icls dec cf E s a U D RU) as [n [[s' X]|[_ (b & R & RV)]]]; [exists n, s'; exact X|].
  rewrite (RS b R) in RV. discriminate RV.
Qed.
Print Assumptions decode_terminates.
(** Non-vacuity: a program with a loop and a call. *)
Lemma reach_prog : forall l cf E U a, reach rvinst r_len rv_cls (prog l) cf E a -> (forall b, In b E -> In b U) ->
  forallb (fun i => (if snd (rv_cls i) =? 0 then true else existsb (Z.eqb (snd (rv_cls i))) U) &&
                    (if follows cf (fst (rv_cls i)) then existsb (Z.eqb (add64 (r_start i) (r_len i))) U else true)) l = true -> In a U.
Proof.
  intros l cf E U a R EU F. induction R as [a I0|a i b R IH D S1]; [auto|].
  assert (X : In i l /\ r_start i = a).
  { clear -D. induction l as [|j l IH]; [discriminate|]. cbn in D. destruct (Z.eqb_spec (r_start j) a); [injection D as ->; cbn; auto|].
    destruct (IH D). cbn. auto. }
  destruct X as [X SA]. rewrite forallb_forall in F. specialize (F i X). apply andb_prop in F. destruct F as [F1 F2].
  assert (EX : forall v, existsb (Z.eqb v) U = true -> In v U).
  { intros v Q. apply existsb_exists in Q. destruct Q as (y & Q & Z0). apply Z.eqb_eq in Z0. subst. assumption. }
  destruct S1 as [[T T0]|[F ->]].
  - apply EX. rewrite <- T in *. destruct (Z.eqb_spec (snd (rv_cls i)) 0); [contradiction|assumption].
  - apply EX. rewrite F, SA in F2. assumption.
Qed.
Example ex_decode_hyps : forall a, reach rvinst r_len rv_cls (prog p_loop) true [0x1000] a ->
  In a [0x1000; 0x1004; 0x1008; 0x100c] /\ reserved a = false.
Proof.
  intros a R. assert (X : In a [0x1000; 0x1004; 0x1008; 0x100c]).
  { eapply reach_prog; [exact R|intros b [<-|[]]; cbn; auto|vm_compute; reflexivity]. }
  split; [assumption|]. cbn in X. destruct X as [<-|[<-|[<-|[<-|[]]]]]; reflexivity.
Qed.
Example ex_decode : match rdecode (prog p_loop) MAll true 20 (dst0 _) 0x1000 with
  | Some (Some s) => starts s = [(0x1000, true); (0x1004, false); (0x1008, true); (0x100c, true)] /\ f_ranges _ s = [(0x1000, 0x1010); (0, 0)]
  | _ => False end.
Proof. vm_compute. split; reflexivity. Qed.
Example ex_calls : exists s, rcalls (prog p_loop) true [0x1000] s.
Proof.
  destruct (rdecode (prog p_loop) MAll true 20 (dst0 _) 0x1000) as [[s|]|] eqn:E; [|vm_compute in E; discriminate|vm_compute in E; discriminate].
  exists s. econstructor; [constructor|exact E].
Qed.
(** Refuted without the hypothesis: a conditional branch to the last byte (or the
    last but one) of the address space violates an assertion of llvm::DenseMap;
    with NDEBUG the map is corrupted. *)
Theorem decode_reserved_refuted : exists l a n, (forall b, reach rvinst r_len rv_cls (prog l) false [a] b -> In b [a; a + 4; 2^64 - 2]) /\
  rdecode (prog l) MAll false n (dst0 _) a = Some None.
Proof.
  exists [insn R_BEQ 128 5 0 (-0x1002) 0x1000; insn R_ECALL 128 128 128 0 0x1004], 0x1000, 5%nat. split; [|vm_compute; reflexivity].
  intros b R. eapply reach_prog; [exact R|intros c [<-|[]]; cbn; auto|vm_compute; reflexivity].
Qed.
Print Assumptions decode_reserved_refuted.

(** C14. Every decoded address that is the target of a decoded branch, or that
    follows a conditional branch or call, or that follows an instruction it is not
    stored behind, starts a block. *)
Theorem block_starts : forall Ins ilen icls dec cf E s, calls Ins ilen icls dec cf E s ->
  forall i d d', nth_error (f_ins _ s) i = Some d -> In d' (f_ins _ s) ->
  ((snd (icls (d_i _ d)) = d_start _ d' /\ d_start _ d' <> 0) \/
   (follows cf (fst (icls (d_i _ d))) = true /\ trunc 64 (d_start _ d + ilen (d_i _ d)) = d_start _ d' /\
    (fst (icls (d_i _ d)) <> KOther \/ nth_error (f_ins _ s) (S i) <> Some d'))) ->
  d_new _ d' = true.
Proof. intros. eapply calls_blocks; try eassumption. reflexivity. Qed.
Print Assumptions block_starts.
(** An instruction that does not start a block directly follows, in memory and in
    the list, one that always continues there, after any sequence of decode calls;
    so blocks are contiguous and only the last instruction can transfer control. *)
Theorem blocks_contiguous : forall Ins ilen icls s, decoded Ins ilen icls s ->
  forall i d, nth_error (f_ins _ s) i = Some d -> d_new _ d = false ->
  exists j d', i = S j /\ nth_error (f_ins _ s) j = Some d' /\
    trunc 64 (d_start _ d' + ilen (d_i _ d')) = d_start _ d /\ fst (icls (d_i _ d')) = KOther.
Proof.
  intros Ins ilen icls s D i d N NB. destruct (v_run _ _ _ _ (decoded_inv _ _ _ _ D) i d N NB) as (j & d' & X1 & X2 & X3 & X4 & _).
  exists j, d'. auto.
Qed.
Print Assumptions blocks_contiguous.
(** Non-vacuity: decoding a block in the middle first, the outer code later, splits
    the block at the branch target. *)
Example ex_split : match rdecode (prog p_self) MAll false 20 (dst0 _) 0x1000 with
  | Some (Some s) => starts s = [(0x1000, true); (0x1004, true); (0x1008, false); (0x2000, true)]
  | _ => False end.
Proof. vm_compute. reflexivity. Qed.
(** Refuted for ll_func_decode_block: it drops the branch targets it saw, so a
    target decoded later as part of another block does not start a block. *)
Theorem block_starts_decode_block_refuted : exists l s1 s2,
  rdecode (prog l) MBlock false 20 (dst0 _) 0x1000 = Some (Some s1) /\
  rdecode (prog l) MBlock false 20 s1 0x2000 = Some (Some s2) /\
  exists d d', In d (f_ins _ s2) /\ In d' (f_ins _ s2) /\ snd (rv_cls (d_i _ d)) = d_start _ d' /\ d_start _ d' <> 0 /\ d_new _ d' = false.
Proof.
  exists [insn R_BEQ 128 5 0 0x1004 0x1000; insn R_ADDI 5 5 128 1 0x2000; insn R_ADDI 5 5 128 1 0x2004; insn R_ECALL 128 128 128 0 0x2008].
  eexists _, _. split; [vm_compute; reflexivity|]. split; [vm_compute; reflexivity|].
  eexists _, _. split; [left; reflexivity|]. split; [right; right; left; reflexivity|]. cbn. split; [vm_compute; reflexivity|]. split; [discriminate|reflexivity].
Qed.
Print Assumptions block_starts_decode_block_refuted.

(** C15. After any sequence of decode calls (any mode, changing memory contents)
    the ranges are non-empty, their union is exactly the set of bytes of the decoded
    instructions and a sentinel ends the list, if no instruction extends to the
    last byte of the address space. *)
Theorem code_ranges_exact : forall Ins ilen icls s, decoded_nw Ins ilen icls s ->
  exists pre, f_ranges _ s = pre ++ [(0, 0)] /\ (forall lo hi, In (lo, hi) pre -> lo < hi) /\
  forall b, (exists lo hi, In (lo, hi) pre /\ lo <= b < hi) <->
            (exists d, In d (f_ins _ s) /\ d_start _ d <= b < d_start _ d + ilen (d_i _ d)).
Proof.
  intros Ins ilen icls s D. destruct (decoded_ranges _ _ _ _ D) as [(pre & E & F & _ & C) [_ I2]]. exists pre. split; [assumption|].
  split; [intros lo hi Q; rewrite Forall_forall in F; apply (F (lo, hi) Q)|]. intros b. specialize (C b). unfold covered, in_ranges in C. rewrite C.
  split; [auto|]. intros [X|(? & ? & ? & X & _)]; [assumption|congruence].
Qed.
Print Assumptions code_ranges_exact.
Example ex_ranges : exists s, decoded_nw rvinst r_len rv_cls s /\ f_ranges _ s = [(0x1004, 0x100c); (0x2000, 0x2004); (0x1000, 0x1004); (0, 0)].
Proof.
  assert (NW : nowrap rvinst r_len (prog p_self)).
  { intros a i D; unfold prog, p_self, insn in D; cbn [r_start] in D;
    repeat match type of D with (if ?c =? ?a then _ else _) = _ => destruct (Z.eqb_spec c a); [injection D as <-; cbn [r_len]; lia|] end; discriminate. }
  destruct (rdecode (prog p_self) MBlock true 20 (dst0 _) 0x1004) as [[s1|]|] eqn:E1; [|vm_compute in E1; discriminate|vm_compute in E1; discriminate].
  destruct (rdecode (prog p_self) MInstr true 20 s1 0x2000) as [[s2|]|] eqn:E2;
    [|vm_compute in E1; injection E1 as <-; vm_compute in E2; discriminate|vm_compute in E1; injection E1 as <-; vm_compute in E2; discriminate].
  destruct (rdecode (prog p_self) MAll true 20 s2 0x1000) as [[s3|]|] eqn:E3;
    [|vm_compute in E1; injection E1 as <-; vm_compute in E2; injection E2 as <-; vm_compute in E3; discriminate..].
  exists s3. split; [|vm_compute in E1; injection E1 as <-; vm_compute in E2; injection E2 as <-; vm_compute in E3; injection E3 as <-; reflexivity].
  eapply decoded_nw1; [eapply decoded_nw1; [eapply decoded_nw1; [constructor| |exact E1]| |exact E2]| |exact E3]; assumption.
Qed.
(** Refuted without the hypothesis: an instruction that ends at 2^64 gives a range
    with end 0. *)
Theorem code_ranges_top_refuted : exists l a s, rdecode (prog l) MInstr false 5 (dst0 _) a = Some (Some s) /\
  f_ranges _ s = [(2^64 - 4, 0); (0, 0)].
Proof. exists [insn R_ADDI 5 5 128 1 (2^64 - 4)], (2^64 - 4). eexists. split; vm_compute; reflexivity. Qed.
Print Assumptions code_ranges_top_refuted.

(** C16. After ll_func_decode_cfg calls the predecessor count of an address is
    exactly the number of edges (branch target and fall-through) into it. *)
Theorem pred_counts_exact : forall Ins ilen icls cf s, decoded_all Ins ilen icls cf s ->
  forall a, e_preds (f_map _ s a) = real Ins ilen icls cf a s.
Proof. intros. apply preds_exact. assumption. Qed.
Print Assumptions pred_counts_exact.
(** With other decode calls mixed in it never exceeds it ... *)
Theorem pred_counts_upper : forall Ins ilen icls cf s, decoded_cf Ins ilen icls cf s ->
  forall a, (e_preds (f_map _ s a) <= real Ins ilen icls cf a s)%nat.
Proof. intros. apply preds_le. assumption. Qed.
Print Assumptions pred_counts_upper.
(** ... but can be smaller: two ll_func_decode_block calls on a loop entered by
    fall-through from a conditional branch count one predecessor of its head
    where there are two. *)
Theorem pred_counts_decode_block_refuted : exists l s1 s2,
  rdecode (prog l) MBlock false 20 (dst0 _) 0x1000 = Some (Some s1) /\
  rdecode (prog l) MBlock false 20 s1 0x1004 = Some (Some s2) /\
  starts s2 = [(0x1000, true); (0x1004, true); (0x1008, false)] /\
  e_preds (f_map _ s2 0x1004) = 1%nat /\ real rvinst r_len rv_cls false 0x1004 s2 = 2%nat.
Proof.
  exists p_self. eexists _, _. split; [vm_compute; reflexivity|]. split; [vm_compute; reflexivity|]. vm_compute. auto.
Qed.
Print Assumptions pred_counts_decode_block_refuted.
(** Non-vacuity. *)
Example ex_preds : match rdecode (prog p_loop) MAll true 20 (dst0 _) 0x1000 with
  | Some (Some s) => map (fun a => e_preds (f_map _ s a)) [0x1000; 0x1004; 0x1008; 0x100c; 0x1010] = [1; 1; 1; 1; 0]%nat
  | _ => False end.
Proof. vm_compute. reflexivity. Qed.
