(** Executions of finished functions: the values of the IR, the CPU struct, and
    the registers of the source program.

    An execution is a sequence of segments, the pieces of code between two points
    where a register file is created: the start of a block, or the return of a
    call. It is described without the register file's data structures: by the
    history of the calls the lifters made, and by the stores, loads and PHI nodes
    of the finished function. *)

From Coq Require Import ZArith Lia ZifyBool List Bool.
From Verif Require Import Bits IR Facet Dsl RegFile RegFileOk RegScript Layout Cfg CfgHeap CfgLog.
Import ListNotations.
Open Scope Z_scope.

Section Sem.
Context `{FpuOps}.
Variable A : arch.
(** [own n] is the register file in use when instruction [n] was emitted. *)
Variable own : nat -> nat.
Variable L : lifted.
Notation f := (l_fn L).

Definition rbits (x : rv) : option Z := match x with V _ z => Some z | Poison _ => None end.
(** The CPU struct. *)
Definition slots := areg -> rv.
Definition slots_ok (S : slots) : Prop := forall r, ty_of (S r) = nty A r /\ wf_rv (S r).
Definition regs := areg -> option Z.

(** The segment in which the value of an instruction is computed. *)
Definition owner (a : atom) : option nat :=
  match a with AVar n _ => Some (own n) | APhi b _ => f_first f b | ASlot u _ _ => Some u end.

(** The stores at the end of a segment. *)
Definition seg_stores (k : nat) : list store := filter (fun st => Nat.eqb (fst (fst st)) k) (l_stores L).
Definition store1 (e : env) (S : slots) (st : store) : slots :=
  let '(_, r, v) := st in fun r' => if areg_eqb r r' then match vev e (v_e v) with Ok x => x | _ => S r' end else S r'.
Definition do_stores (e : env) (S : slots) (l : list store) : slots := fold_left (store1 e) l S.
Definition end_slots (e : env) (S : slots) (k : nat) : slots := do_stores e S (seg_stores k).
(** Loads from the CPU struct: those emitted while lifting see it as it was at the
    beginning of the segment; those emitted later are between the stores at its
    end, at any place. *)
Definition loads_ok (k : nat) (e : env) (S : slots) : Prop :=
  forall r, In (k, r) (h_loads (f_h f)) ->
    (In (k, r) (l_early L) -> e (ASlot k r (nty A r)) = S r) /\
    (~ In (k, r) (l_early L) -> exists l1 l2, seg_stores k = l1 ++ l2 /\ e (ASlot k r (nty A r)) = do_stores e S l1 r).
(** The registers of the source program after the operations [l] of a segment: the
    last value written, else the content at the beginning of the segment. *)
Definition seg_regs (e : env) (S : slots) (R : regs) (k : nat) (l : log) : regs :=
  fun r => rcell A e k r (rbits (S r)) (R r) l.

(** [reach k e S R]: segment [k] can be executed with the values [e], the CPU struct
    [S] and the source registers [R] at its beginning. At the function's start and
    after calls the source registers are in the CPU struct, of any content. *)
Inductive reach : nat -> env -> slots -> regs -> Prop :=
| re_entry : forall e S, env_ok A e -> slots_ok S -> loads_ok 0 e S -> reach 0 e S (fun r => rbits (S r))
| re_call : forall k e S R p k' e' S', reach k e S R ->
    In p (f_packs f) -> pk_file p = k -> pk_next p = Some k' ->
    env_ok A e' -> slots_ok S' -> (forall a, owner a <> Some k' -> e' a = e a) -> loads_ok k' e' S' ->
    reach k' e' S' (fun r => rbits (S' r))
| re_branch : forall k e S R b b' k' e', reach k e S R ->
    f_file f b = Some k -> In b' (f_succs f b) -> f_first f b' = Some k' ->
    env_ok A e' -> (forall a, owner a <> Some k' -> e' a = e a) ->
    (forall r inc, In (b', r, inc) (l_phis L) -> exists v, In (b, v) inc /\ vev e (v_e v) = Ok (e' (APhi b' r))) ->
    loads_ok k' e' (end_slots e S k) ->
    reach k' e' (end_slots e S k) (seg_regs e S R k (f_log f)).
End Sem.
