(** Properties C09, C10 and C50: register reads, lazily evaluated flags and
    high-byte reads, for arbitrary sequences of register-file operations. *)

From Coq Require Import ZArith Lia List Bool.
From Verif Require Import Bits IR Facet Dsl RegFile RegFileOk RegScript Rv64Ex.
Import ListNotations.
Open Scope Z_scope.

(** C09. For every architecture, every sequence of register file creations, full,
    partial, deferred and lazy writes and reads (any register, type and caching
    decision; files inherit from earlier files or from PHI nodes): every read
    returns an IR value that evaluates to the bits of the specification, whatever
    the PHI nodes, loads and earlier instructions evaluate to. *)
Theorem regfile_reads_correct : forall `{FpuOps} A l s vs, legal A stat0 l ->
  exec A (0%nat, h0) l = Some (s, vs) ->
  forall e, env_ok A e -> reads_ok e (spec A e (fun _ _ => None) 0 l) vs.
Proof.
  intros ? A l s vs L X e E. pose proof (exec_ok A l stat0 0 h0 (inv0 A) L) as P. rewrite X in P.
  apply P; [assumption|]. apply agree0.
Qed.
Print Assumptions regfile_reads_correct.
(** No assertion fails and no ill-typed IR is built, except possibly in high-byte reads. *)
Theorem regfile_reads_total : forall `{FpuOps} A l, legal A stat0 l -> no_high l ->
  exists s vs, exec A (0%nat, h0) l = Some (s, vs).
Proof.
  intros ? A l L N. pose proof (exec_ok A l stat0 0 h0 (inv0 A) L) as P.
  destruct (exec A (0%nat, h0) l) as [[s vs]|]; [eauto|contradiction].
Qed.
Print Assumptions regfile_reads_total.

(** An assignment of the atoms: every integer, pointer and vector is 0x1122... *)
Definition e_ex (A : arch) : env := fun a =>
  if 0 <=? tsize (aty A a) then V (aty A a) (trunc (tsize (aty A a)) 0x11223344556677889900aabbccddeeff) else Poison (aty A a).
Lemma e_ex_ok : forall A, env_ok A (e_ex A).
Proof.
  intros A a. unfold e_ex. destruct (Z.leb_spec 0 (tsize (aty A a))); split; try reflexivity; cbn.
  apply trunc_range. assumption.
Qed.
Definition ci (w z : Z) : value := Val (TInt w) (EConst (TInt w) z).
Lemma ci_ok : forall `{FpuOps} A w z, 0 <= w -> tyok A (ci w z).
Proof. intros ? A w z W e E. exists (V (TInt w) (trunc w z)). split; [reflexivity|]. split; [reflexivity|]. apply trunc_range. assumption. Qed.

(** mov eax-style writes over a value loaded from the CPU struct, in a block that
    inherits from its only predecessor, with two flags set in between. *)
Definition script_ex : list rop :=
  [ ONew InitNone; OLoad 0 (GP 0) 0 (TInt 64); OLoad 0 (VEC 1) 0 (TVec 2 (TInt 64)); ONew (InitParent 0);
    OMerge 1 (GP 0) (ci 16 0xbeef); OLazy 1 (FLAG 0) IsZero (ci 32 0) (ci 1 0) (ci 1 0);
    OLazy 1 (FLAG 4) AddOverflowFlag (ci 8 0x80) (ci 8 0x7f) (ci 8 1); OMerge 1 (GP 0) (ci 8 0x12);
    OGet true 1 (GP 0) I32; OGet true 1 (GP 0) I8H; OGet false 1 (GP 0) PTR; OGet true 1 (FLAG 0) I1; OGet true 1 (FLAG 4) I1;
    OMerge 1 (VEC 1) (ci 32 7); OGet true 1 (VEC 1) V4I32; OSet 1 (GP 0) (ci 32 5); OGet true 1 (GP 0) I64 ].
Ltac legal_tac :=
  repeat (split; [cbn [legal1 flag_ops]; unfold ok_write, facet_ok, okty;
    repeat match goal with |- _ /\ _ => split end;
    try exact I; try (vm_compute; reflexivity); try (apply ci_ok; cbn; lia);
    try (apply Z.leb_le; vm_compute; reflexivity); try (apply Nat.ltb_lt; vm_compute; reflexivity); try (cbn; unfold okw; lia); try (cbn; unfold okw; repeat split; lia)|]); try exact I.
Lemma script_ex_legal : forall `{FpuOps}, legal X86_64 stat0 script_ex.
Proof.
  intros. unfold script_ex. legal_tac.
Qed.
Example regfile_reads_nv :
  match exec X86_64 (0%nat, h0) script_ex with Some (_, vs) => map (pv (H:=fpu0) (e_ex X86_64)) vs | None => [] end =
    [Some 0xccddbe12; Some 0xbe; Some 0x9900aabbccddbe12; Some 1; Some 1; Some 0x11223344556677889900aabb00000007; Some 5].
Proof. vm_compute. reflexivity. Qed.
Example regfile_spec_nv : spec (H:=fpu0) X86_64 (e_ex X86_64) (fun _ _ => None) 0 script_ex =
    [Some 0xccddbe12; Some 0xbe; Some 0x9900aabbccddbe12; Some 1; Some 1; Some 0x11223344556677889900aabb00000007; Some 5].
Proof. vm_compute. reflexivity. Qed.

(** C10. A script and the same script with every lazily evaluated flag replaced by
    a full write of any expression that computes the flag at the write. *)
Definition eager_op `{FpuOps} (A : arch) (o o' : rop) : Prop :=
  match o with
  | OLazy k r tr v1 v2 v3 => exists v, o' = OSet k r v /\ tyok A v /\ v_ty v = TInt (flag_width tr) /\
      forall e, env_ok A e -> pv e v = eager e tr (opw v1) v1 v2 v3
  | _ => o' = o
  end.
Lemma eager_legal : forall `{FpuOps} A l l', Forall2 (eager_op A) l l' -> forall s, legal A s l -> legal A s l'.
Proof.
  intros ? A l l' F. induction F as [|o o' l l' E F IH]; intros s L; [exact I|]. destruct L as [L1 L2].
  destruct o; cbn [eager_op] in E; try (subst o'; split; [assumption|auto]).
  destruct E as (v & -> & T & Y & P). destruct L1 as [L1 _]. split; [|apply IH; exact L2]. cbn. rewrite Y. auto.
Qed.
Lemma eager_spec : forall `{FpuOps} A e l l', env_ok A e -> Forall2 (eager_op A) l l' ->
  forall M n, spec A e M n l = spec A e M n l'.
Proof.
  intros ? A e l l' EO F. induction F as [|o o' l l' E F IH]; intros M n; [reflexivity|]. cbn [spec].
  destruct o; cbn [eager_op] in E; try (subst o'; rewrite IH; reflexivity).
  destruct E as (v & -> & T & Y & P). cbn [spec1 next app]. rewrite (P e EO). apply IH.
Qed.
Lemma eager_no_high : forall `{FpuOps} A l l', Forall2 (eager_op A) l l' -> no_high l -> no_high l'.
Proof.
  intros ? A l l' F N. induction F as [|o o' l l' E F IH]; [constructor|]. inversion N; subst. constructor; [|apply IH; assumption].
  destruct o; cbn [eager_op] in E; try (subst o'; assumption). destruct E as (v & -> & _). exact I.
Qed.
Theorem lazy_flags_eager : forall `{FpuOps} A l l', legal A stat0 l -> no_high l -> Forall2 (eager_op A) l l' ->
  exists s vs s' vs', exec A (0%nat, h0) l = Some (s, vs) /\ exec A (0%nat, h0) l' = Some (s', vs') /\
  forall e, env_ok A e -> exists sp, reads_ok e sp vs /\ reads_ok e sp vs' /\ sp = spec A e (fun _ _ => None) 0 l.
Proof.
  intros ? A l l' L N F.
  destruct (regfile_reads_total A l L N) as (s & vs & X).
  pose proof (eager_legal A l l' F _ L) as L'. pose proof (eager_no_high A l l' F N) as N'.
  destruct (regfile_reads_total A l' L' N') as (s' & vs' & X').
  exists s, vs, s', vs'. split; [assumption|]. split; [assumption|]. intros e E.
  exists (spec A e (fun _ _ => None) 0 l). split; [eapply regfile_reads_correct; eassumption|]. split; [|reflexivity].
  rewrite (eager_spec A e l l' E F). eapply regfile_reads_correct; eassumption.
Qed.
Print Assumptions lazy_flags_eager.
(** The replacement exists for every legal flag write ... *)
Theorem lazy_flag_exists : forall `{FpuOps} A k r tr v1 v2 v3, flag_ops A tr (opw v1) v1 v2 v3 ->
  exists o', eager_op A (OLazy k r tr v1 v2 v3) o'.
Proof.
  intros ? A k r tr v1 v2 v3 O. destruct (lazy_flag A tr (opw v1) v1 v2 v3 O) as (v & _ & T & Y & P).
  exists (OSet k r v). exists v. auto.
Qed.
Print Assumptions lazy_flag_exists.
(** ... and [eager] is the usual flag: signed overflow of an addition, borrow,
    carry out of bit 3 (for the operands of an addition). *)
Theorem eager_overflow : forall w b c, 0 < w -> inr w b -> inr w c ->
  flag_bits AddOverflowFlag w (trunc w (b + c)) b c =
  b2z (negb ((- 2^(w-1) <=? sgn w b + sgn w c) && (sgn w b + sgn w c <? 2^(w-1)))).
Proof.
  intros w b c W [B1 B2] [C1 C2]. unfold flag_bits. f_equal.
  assert (P : 2^w = 2 * 2^(w-1)) by (rewrite <- Z.pow_succ_r by lia; f_equal; lia).
  assert (T : trunc w (b + c) = if b + c <? 2^w then b + c else b + c - 2^w).
  { destruct (Z.ltb_spec (b + c) (2^w)); [apply trunc_small; split; lia|].
    unfold trunc. symmetry. apply Z.mod_unique with 1; lia. }
  rewrite T. unfold sgn. set (m := 2^(w-1)) in *.
  destruct (Z.leb_spec m b), (Z.leb_spec m c), (Z.ltb_spec (b + c) (2^w)), (Z.ltb_spec b m), (Z.ltb_spec c m); try lia; cbn [Bool.eqb andb negb];
  match goal with |- context [m <=? ?x] => destruct (Z.leb_spec m x) | _ => idtac end; cbn [Bool.eqb andb negb]; lia.
Qed.
Print Assumptions eager_overflow.
Theorem eager_aux : forall w b c, 8 <= w -> inr w b -> inr w c ->
  flag_bits X86AuxFlag w (trunc w (b + c)) b c = b2z (2^4 <=? b mod 2^4 + c mod 2^4).
Proof.
  intros w b c W [B1 B2] [C1 C2]. unfold flag_bits. f_equal.
  rewrite testbit_trunc by lia. replace (4 <? w) with true by lia.
  assert (X : forall x, 0 <= x -> Z.testbit x 4 = (x / 16 mod 2 =? 1)).
  { intros x Hx. rewrite Z.testbit_eqb by lia. reflexivity. }
  rewrite !X by lia. cbn [andb]. change (2^4) with 16.
  pose proof (Z.div_mod b 16 ltac:(lia)). pose proof (Z.div_mod c 16 ltac:(lia)).
  pose proof (Z.mod_pos_bound b 16 ltac:(lia)). pose proof (Z.mod_pos_bound c 16 ltac:(lia)).
  assert (Q : (b + c) / 16 = b / 16 + c / 16 + (if 16 <=? b mod 16 + c mod 16 then 1 else 0)).
  { destruct (Z.leb_spec 16 (b mod 16 + c mod 16)); symmetry; [apply Z.div_unique with (b mod 16 + c mod 16 - 16)|apply Z.div_unique with (b mod 16 + c mod 16)]; lia. }
  rewrite Q. set (p := b / 16). set (q := c / 16). 
  pose proof (Z.mod_pos_bound p 2 ltac:(lia)). pose proof (Z.mod_pos_bound q 2 ltac:(lia)).
  assert (R : forall t, (p + q + t) mod 2 = (p mod 2 + q mod 2 + t) mod 2).
  { intros t. rewrite <- (Zplus_mod_idemp_l (p + q)), (Zplus_mod p q), (Zplus_mod_idemp_l (p mod 2 + q mod 2)). reflexivity. }
  rewrite R. destruct (16 <=? b mod 16 + c mod 16);
  (assert (p mod 2 = 0 \/ p mod 2 = 1) as [->| ->] by lia); (assert (q mod 2 = 0 \/ q mod 2 = 1) as [->| ->] by lia); reflexivity.
Qed.
Print Assumptions eager_aux.
Theorem eager_carry : forall w b c, 0 < w -> inr w b -> inr w c ->
  flag_bits IsULT w (trunc w (b + c)) b 0 = b2z (2^w <=? b + c).
Proof.
  intros w b c W [B1 B2] [C1 C2]. unfold flag_bits. f_equal.
  assert (T : trunc w (b + c) = if b + c <? 2^w then b + c else b + c - 2^w).
  { destruct (Z.ltb_spec (b + c) (2^w)); [apply trunc_small; split; lia|]. unfold trunc. symmetry. apply Z.mod_unique with 1; lia. }
  rewrite T. destruct (Z.ltb_spec (b + c) (2^w)), (Z.leb_spec (2^w) (b + c)); lia.
Qed.
Print Assumptions eager_carry.
Example lazy_flags_nv : exists l l', legal (H:=fpu0) X86_64 stat0 l /\ no_high l /\ Forall2 (eager_op (H:=fpu0) X86_64) l l' /\
  In (OLazy 0 (FLAG 3) IsULT (ci 64 1) (ci 64 (-1)) (ci 1 0)) l /\
  spec (H:=fpu0) X86_64 (e_ex X86_64) (fun _ _ => None) 0 l = [Some 1].
Proof.
  set (l := [ONew InitNone; OLazy 0 (FLAG 3) IsULT (ci 64 1) (ci 64 (-1)) (ci 1 0); OSet 0 (GP 0) (ci 64 0); OGet true 0 (FLAG 3) I1]).
  exists l, [ONew InitNone; OSet 0 (FLAG 3) (ci 1 1); OSet 0 (GP 0) (ci 64 0); OGet true 0 (FLAG 3) I1].
  split.
  { subst l. legal_tac. }
  split; [repeat constructor|]. split.
  - repeat (constructor; [try reflexivity|]); [|constructor]. exists (ci 1 1).
    split; [reflexivity|]. split; [apply ci_ok; lia|]. split; [reflexivity|]. intros. reflexivity.
  - split; [right; left; reflexivity|]. vm_compute. reflexivity.
Qed.

(** C50. High-byte reads: right whenever they succeed (regfile_reads_correct); they
    fail exactly when the value the read would use has pointer type. *)
Theorem high_byte_read_partial : forall `{FpuOps} A cache h k r, wf_h A h -> avail A h k r -> facet_ok (kd A r) I8H ->
  (exists h' v, get_reg A cache h k r I8H = Some (h', v) /\ read_ok A h h' k r I8H v) \/
  (get_reg A cache h k r I8H = None /\
   exists h' i uz vs p, get_fold A (S k) h k r 16 = Some (h', i) /\ h_reg h' k r = RVals uz vs /\ nth_error vs i = Some p /\ v_ty (p_a p) = TPtr).
Proof. intros. apply get_reg_high; assumption. Qed.
Print Assumptions high_byte_read_partial.
(** mov rdx,[rax]; mov cl,ah: the second instruction violates an assertion, for
    any architectural contents of RAX and either caching decision. *)
Theorem high_byte_after_pointer_refuted : forall `{FpuOps} c1 c2, exists l,
  l = [ONew InitNone; OLoad 0 (GP 0) 0 (TInt 64); OGet c1 0 (GP 0) PTR; OGet c2 0 (GP 0) I8H] /\
  legal X86_64 stat0 l /\ exec X86_64 (0%nat, h0) l = None.
Proof.
  intros ? c1 c2. eexists. split; [reflexivity|]. split.
  - legal_tac.
  - destruct c1, c2; vm_compute; reflexivity.
Qed.
Print Assumptions high_byte_after_pointer_refuted.
