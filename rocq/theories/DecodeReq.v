(** The memory accesses of /repo/src/lldecoder.cc:156-232 Function::Decode: one request of
    sizeof(inst_buf) = 15 bytes per address that is looked at and not decoded yet
    (lldecoder.cc:157, 173), and the reader used without callback
    (/repo/src/rellume.cc:146-158 ll_func_decode). *)

From Coq Require Import ZArith Lia ZifyBool List Bool Arith.
From Verif Require Import Bits Decode DecodeOk.
Import ListNotations.
Open Scope Z_scope.

Section Req.
Variable Ins : Type.
Variable ilen : Ins -> Z.
Variable icls : Ins -> kind * Z.
Notation dst := (dst Ins).
Section Run.
Variable dec : Z -> option Ins.
Variable m : mode.
Variable cf : bool.
Notation step := (step Ins ilen icls dec m cf).
Notation iter := (iter Ins ilen icls dec m cf).

(** lldecoder.cc:167-173: the address given to the reader in one iteration of the inner
    loop, if there is a request. *)
Definition request (s : dst) : list Z :=
  match f_cur _ s with
  | Some (_, cur, _) => if e_dec (f_map _ s cur) then [] else [cur]
  | None => []
  end.
(** All requests of a run of at most [n] iterations, in order. *)
Fixpoint reqs (n : nat) (s : dst) : list Z :=
  match n with
  | O => []
  | S n' => request s ++ match step s with Next _ s' => reqs n' s' | _ => [] end
  end.
(** The requests of one call of Decode. *)
Definition decode_reqs (n : nat) (s : dst) (addr : Z) : list Z := reqs n (DS Ins (f_ins _ s) (f_map _ s) (f_ranges _ s) [addr] None).

(** ** Lemmas *)
Definition isdec (a : Z) : bool := match dec a with Some _ => true | None => false end.
Lemma starts_mark : forall l n, map (d_start Ins) (mark Ins n l) = map (d_start Ins) l.
Proof. induction l as [|d l IH]; intros [|n]; cbn; try reflexivity. f_equal. apply IH. Qed.
Definition st_ins (s : dst) : list Z := map (d_start Ins) (f_ins _ s).
Lemma step_starts : forall s s', step s = Next _ s' -> st_ins s' = st_ins s ++ filter isdec (request s).
Proof.
  intros s s' X. unfold Decode.step in X. unfold request, st_ins. destruct (f_cur _ s) as [[[st cur] nb]|].
  - cbv zeta in X. destruct (e_dec (f_map _ s cur)).
    + unfold finish in X. injection X as <-. cbn. rewrite starts_mark, app_nil_r. reflexivity.
    + cbn [filter]. unfold isdec. destruct (dec cur) as [i|].
      * set (mp1 := upd_map _ _ _) in X. destruct m.
        -- unfold finish in X. injection X as <-. cbn. rewrite map_app. reflexivity.
        -- destruct (icls i) as [k t]. destruct (negb (t =? 0) && reserved t); [discriminate X|].
           destruct (t =? 0); destruct (falls MBlock cf k); try (destruct (reserved (add64 cur (ilen i))); [discriminate X|]); unfold finish in X; injection X as <-; cbn [f_ins];
             try destruct (e_dec (mp1 t)); rewrite ?starts_mark, map_app; reflexivity.
        -- destruct (icls i) as [k t]. destruct (negb (t =? 0) && reserved t); [discriminate X|].
           destruct (t =? 0); destruct (falls MAll cf k); try (destruct (reserved (add64 cur (ilen i))); [discriminate X|]); unfold finish in X; injection X as <-; cbn [f_ins];
             try destruct (e_dec (mp1 t)); rewrite ?starts_mark, map_app; reflexivity.
      * unfold finish in X. injection X as <-. cbn. rewrite app_nil_r. reflexivity.
  - destruct (f_stack _ s) as [|a stk]; [discriminate X|]. destruct (reserved a); [discriminate X|]. injection X as <-. cbn. rewrite app_nil_r. reflexivity.
Qed.
Lemma step_done : forall s s', step s = Done _ s' -> s' = s /\ request s = [].
Proof.
  intros s s' X. unfold Decode.step in X. unfold request. destruct (f_cur _ s) as [[[st cur] nb]|].
  - exfalso. cbv zeta in X. destruct (e_dec (f_map _ s cur)); [discriminate X|]. destruct (dec cur) as [i|]; [|discriminate X].
    destruct m; [discriminate X| |]; destruct (icls i) as [k t]; (destruct (negb (t =? 0) && reserved t); [discriminate X|]);
      destruct (t =? 0); match type of X with (if ?c then _ else _) = _ => destruct c end; try discriminate X; destruct (reserved _); discriminate X.
  - destruct (f_stack _ s) as [|a stk]; [injection X as <-; auto|]. destruct (reserved a); discriminate X.
Qed.
Lemma reqs_starts : forall n s s', iter n s = Some (Some s') -> st_ins s' = st_ins s ++ filter isdec (reqs n s).
Proof.
  induction n as [|n IH]; intros s s' X; [discriminate X|]. cbn [Decode.iter] in X. cbn [reqs]. destruct (step s) as [s1|s1|] eqn:ST.
  - injection X as <-. destruct (step_done s s1 ST) as [-> ->]. cbn. rewrite app_nil_r. reflexivity.
  - rewrite (IH _ _ X), (step_starts _ _ ST), filter_app, app_assoc. reflexivity.
  - discriminate X.
Qed.
End Run.
Lemma reqs_reach : forall dec cf E n s, cinv Ins ilen icls dec cf E s ->
  forall a, In a (reqs dec MAll cf n s) -> reach Ins ilen icls dec cf E a.
Proof.
  intros dec cf E. induction n as [|n IH]; intros s C a I0; [destruct I0|]. cbn [reqs] in I0. apply in_app_iff in I0. destruct I0 as [I0|I0].
  - unfold request in I0. destruct (f_cur _ s) as [[[st cur] nb]|] eqn:FC; [|destruct I0]. destruct (e_dec (f_map _ s cur)); [destruct I0|].
    destruct I0 as [<-|[]]. exact (c_cur _ _ _ _ _ _ _ C _ _ _ FC).
  - pose proof (step_cinv _ _ _ _ _ E s C) as SC. destruct (step Ins ilen icls dec MAll cf s); [destruct I0|eauto|destruct I0].
Qed.
End Req.
