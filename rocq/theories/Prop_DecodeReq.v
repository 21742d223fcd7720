(** Property C73: the memory that decoding reads. *)

From Coq Require Import ZArith Lia ZifyBool List Bool.
From Verif Require Import Bits IR Facet Dsl Rv64 Decode DecodeOk DecodeRv DecodeReq Prop_Decode.
Import ListNotations.
Open Scope Z_scope.

(** The requests for addresses with a valid instruction are, in order and each once, the
    instructions that the call adds; over any earlier calls no such address is
    requested twice. All three modes, any earlier calls (also with other contents). *)
Theorem decode_requests_once : forall Ins ilen icls dec m cf s n a s', decoded Ins ilen icls s -> decode Ins ilen icls dec m cf n s a = Some (Some s') ->
  let r := filter (fun x => match dec x with Some _ => true | None => false end) (decode_reqs Ins ilen icls dec m cf n s a) in
  map (d_start _) (f_ins _ s') = map (d_start _) (f_ins _ s) ++ r /\ NoDup r /\ forall x, In x r -> ~ In x (map (d_start _) (f_ins _ s)).
Proof.
  intros Ins ilen icls dec m cf s n a s' D X r.
  assert (E : map (d_start _) (f_ins _ s') = map (d_start _) (f_ins _ s) ++ r) by exact (reqs_starts Ins ilen icls dec m cf n _ s' X).
  split; [exact E|]. assert (N : NoDup (map (d_start Ins) (f_ins _ s'))) by (eapply decode_once; econstructor; eassumption).
  rewrite E in N. clear - N. induction (map (d_start Ins) (f_ins _ s)) as [|y l IH]; [split; [exact N|intros x _ []]|].
  cbn in N. inversion N as [|? ? N1 N2]; subst. destruct (IH N2) as [A B]. split; [exact A|]. intros x I0 [<-|I1]; [apply N1, in_app_iff; right; exact I0|exact (B x I0 I1)].
Qed.
Print Assumptions decode_requests_once.
(** ll_func_decode_cfg asks for no address that the code does not reach. *)
Theorem decode_requests_reached : forall Ins ilen icls dec cf E s n a, calls Ins ilen icls dec cf E s ->
  forall x, In x (decode_reqs Ins ilen icls dec MAll cf n s a) -> reach Ins ilen icls dec cf (a :: E) x.
Proof.
  intros Ins ilen icls dec cf E s n a D x. destruct (calls_cinv _ _ _ _ _ E s D) as [C I0].
  apply reqs_reach. apply start_cinv; assumption.
Qed.
Print Assumptions decode_requests_reached.

(** Without callback the bytes are copied from the host's memory at the same address: the
    call is defined only if all 15 bytes of every request are readable. *)
Definition host_defined (readable : Z -> bool) (l : list Z) : Prop := forall a k, In a l -> 0 <= k < 15 -> readable (trunc 64 (a + k)) = true.
(** The property: readable instructions suffice. What holds: 15 readable bytes at every
    address that the code reaches suffice. *)
Theorem null_reader_partial : forall Ins ilen icls dec cf E s n a readable, calls Ins ilen icls dec cf E s ->
  (forall b k, reach Ins ilen icls dec cf (a :: E) b -> 0 <= k < 15 -> readable (trunc 64 (b + k)) = true) ->
  host_defined readable (decode_reqs Ins ilen icls dec MAll cf n s a).
Proof. intros * D H b k I0 K. apply H; [|exact K]. eapply decode_requests_reached; eassumption. Qed.
Print Assumptions null_reader_partial.
(** Refuted, for all code: an instruction that is decoded and lies, complete, in the last 14
    bytes of readable memory makes the call undefined, in every mode. *)
Theorem null_reader_refuted : forall Ins ilen icls dec m cf n a s' d hi readable, decode Ins ilen icls dec m cf n (dst0 Ins) a = Some (Some s') ->
  In d (f_ins _ s') -> 0 <= d_start _ d -> d_start _ d + ilen (d_i _ d) <= hi < d_start _ d + 15 -> 0 <= ilen (d_i _ d) -> hi < 2 ^ 64 -> readable hi = false ->
  ~ host_defined readable (decode_reqs Ins ilen icls dec m cf n (dst0 Ins) a).
Proof.
  intros * X I0 L H P T R HD. destruct (decode_requests_once Ins ilen icls dec m cf (dst0 Ins) n a s' (decoded0 _ _ _) X) as [E _]. cbn [dst0 f_ins map app] in E.
  assert (I1 : In (d_start _ d) (decode_reqs Ins ilen icls dec m cf n (dst0 Ins) a)).
  { apply (in_map (d_start _)) in I0. rewrite E in I0. apply filter_In in I0. exact (proj1 I0). }
  specialize (HD _ (hi - d_start _ d) I1). rewrite Zplus_minus in HD. unfold trunc in HD. rewrite Z.mod_small in HD by lia. rewrite HD in R by lia. discriminate R.
Qed.
Print Assumptions null_reader_refuted.
(** Hypotheses met: the code of [p_loop], 16 bytes at 0x1000, in a page that ends behind it. *)
Example null_reader_nv : match rdecode (prog p_loop) MAll true 20 (dst0 _) 0x1000 with
  | Some (Some s) => map (d_start _) (f_ins _ s) = decode_reqs _ r_len rv_cls (prog p_loop) MAll true 20 (dst0 _) 0x1000 /\
      Forall (fun d => d_start _ d + r_len (d_i _ d) <= 0x1010) (f_ins _ s) /\
      exists d, In d (f_ins _ s) /\ 0 <= d_start _ d /\ d_start _ d + r_len (d_i _ d) <= 0x1010 < d_start _ d + 15
  | _ => False end.
Proof.
  destruct (rdecode (prog p_loop) MAll true 20 (dst0 _) 0x1000) as [[s|]|] eqn:E; vm_compute in E; try discriminate E.
  injection E as <-. split; [vm_compute; reflexivity|]. split; [repeat constructor; cbn; lia|].
  eexists. split; [right; right; right; left; reflexivity|]. cbn. lia.
Qed.
(** An entry point without code is asked for, too. *)
Example decode_requests_nv : decode_reqs _ r_len rv_cls (prog p_self) MAll false 20 (dst0 _) 0x1000 <> [] /\
  decode_reqs _ r_len rv_cls (prog p_loop) MInstr true 20 (dst0 _) 0x100 = [0x100].
Proof. split; [vm_compute; discriminate|vm_compute; reflexivity]. Qed.
