(** Property C34: x86-64 string instructions. *)

From Coq Require Import ZArith Lia ZifyBool List Bool.
From Verif Require Import Bits IR Facet Dsl Rv64 Rv64Spec Rv64Sim Rv64Arith Rv64Int Rv64Ex X86 X86Spec X86Arith X86Sim X86Ops
  X86Gp X86Step X86Ex X86StrSpec X86Str.
Import ListNotations.
Open Scope Z_scope.
Ltac Zify.zify_post_hook ::= Z.div_mod_to_equations.

(** What the theorems assume about the state before the instruction. *)
Record str_ctx (c : cenv) (i : xinst) (s : st) (g : xst) : Prop := {
  sc_arch : c_arch c = X86_64; sc_rel : xrel s g; sc_ip : y_ip g = addr_pc_base c (x_start i);
}.
(** The instruction is lifted and every execution of its code ends in [P]. *)
Definition str_lifts `{FpuOps} (c : cenv) (cfg : xcfg) (kc kcp : areg -> konst) (kd : kdivk) (i : xinst) (s : st) (P : st -> Prop) : Prop :=
  exists k, lift_x86 c cfg kc kcp None kd i = (true, k) /\ (exists o, xrun c s k o) /\ (forall o, xrun c s k o -> exists s', o = Ok s' /\ P s').

(** Every string instruction, with and without repeat prefix, for 64-bit addresses:
    the lifted code terminates without undefined behaviour in exactly the
    architectural state, however often it loops. Missing: 32-bit addresses, where it is
    false (x86_string_addr32_refuted). *)
Theorem x86_string_correct_partial : forall `{FpuOps} c cfg kc kcp kd i s g g', str_ctx c i s g -> str_spec i g = Some g' ->
  str_lifts c cfg kc kcp kd i s (fun s' => xrel s' g' /\ pc_value c (s_pc s') 0 = Ok (V (TInt 64) (y_ip g')) /\ s_ret s' = s_ret s).
Proof.
  intros F c cfg kc kcp kd i s g g' [HA R IP] E. destruct (str_whole c cfg kc kcp kd i s g g' HA R IP E) as (k & s' & L & X & D).
  exists k. split; [exact L|]. split; [exists (Ok s'); exact X|]. intros o Y. exists s'. split; [eapply xrun_det; eassumption|exact D].
Qed.
Print Assumptions x86_string_correct_partial.

(** ** What the repeat prefix amounts to *)
Fixpoint iter (n : nat) (f : xst -> xst) (g : xst) : xst := match n with O => g | S n' => iter n' f (f g) end.
(** A repeated instruction performs [j] elements: all of them, or up to and
    including the first after which the condition stops it. *)
Lemma rep_iter_first : forall n stop step g, exists j, (j <= n)%nat /\ rep_iter n stop step g = iter j (fun g => bump (step g) 1 (-1)) g /\
  (forall t, (0 < t < j)%nat -> stop (iter t (fun g => bump (step g) 1 (-1)) g) = false) /\
  ((j < n)%nat -> stop (iter j (fun g => bump (step g) 1 (-1)) g) = true) /\ ((0 < n)%nat -> (0 < j)%nat).
Proof.
  induction n as [|n IH]; intros stop step g.
  - exists 0%nat. repeat split; try lia.
  - cbn [rep_iter]. destruct (stop (bump (step g) 1 (-1))) eqn:S1.
    + exists 1%nat. repeat split; try lia. intros _. exact S1.
    + destruct (IH stop step (bump (step g) 1 (-1))) as (j & J & E & A & B & C). exists (S j). split; [lia|]. split; [exact E|]. split; [|split; [|lia]].
      * intros [|t] T; [lia|]. destruct t as [|t]; [exact S1|]. change (stop (iter (S t) (fun g => bump (step g) 1 (-1)) (bump (step g) 1 (-1))) = false). apply A. lia.
      * intros JN. cbn [iter]. apply B. lia.
Qed.

(** With a zero count nothing changes but the instruction pointer. *)
Theorem x86_rep_zero : forall `{FpuOps} c cfg kc kcp kd i s g df, str_ctx c i s g -> In (x_mn i) [X_MOVS; X_STOS; X_LODS; X_SCAS; X_CMPS] ->
  In (x_opsz i) [1; 2; 4; 8] -> x_addrsz i = 8 -> y_f g fDF = Some df ->
  (if match x_mn i with X_SCAS | X_CMPS => true | _ => false end then xorb (x_rep i) (x_repnz i) else x_rep i && negb (x_repnz i)) = true ->
  y_r g 1 = 0 ->
  str_lifts c cfg kc kcp kd i s (fun s' => (forall n, 0 <= n < 16 -> s_reg s' (GP n) = Some (y_r g n)) /\ (forall f b, y_f g f = Some b -> flag_is s' f b) /\
    (forall x, s_mem s' x = y_m g x) /\ pc_value c (s_pc s') 0 = Ok (V (TInt 64) (U 64 (y_ip g + x_len i)))).
Proof.
  intros F c cfg kc kcp kd i s g df C MN SZ AS DF RP CX.
  assert (E : str_spec i g = Some (set_ip g (y_ip g + x_len i))).
  { unfold str_spec, str_isa. rewrite AS. cbn [y_f set_ip y_r]. rewrite DF, CX. cbn [obind Z.to_nat].
    assert (K : ((x_opsz i =? 1) || (x_opsz i =? 2) || (x_opsz i =? 4) || (x_opsz i =? 8)) = true) by (cbn [In] in SZ; lia). rewrite K. cbn [negb orb Z.eqb Pos.eqb].
    mns MN; rewrite MN in *; destruct (x_rep i), (x_repnz i); try discriminate RP; reflexivity. }
  destruct (x86_string_correct_partial c cfg kc kcp kd i s g _ C E) as (k & L & X & Y). exists k. split; [exact L|]. split; [exact X|].
  intros o XO. destruct (Y o XO) as (s' & EO & R & P & _). exists s'. split; [exact EO|]. split; [apply R|]. split; [apply R|]. split; [apply R|exact P].
Qed.
Print Assumptions x86_rep_zero.

(** ** REPNE SCAS and REPE SCAS search *)
Section Scas.
Variables (g0 : xst) (k d : Z).
Hypothesis KS : k = 1 \/ k = 2 \/ k = 4 \/ k = 8.
Notation elt t := (rd_mem (y_m g0) (U 64 (y_r g0 7 + Z.of_nat t * d)) (Z.to_nat k)).
Notation al := (U (8 * k) (y_r g0 0)).
Notation st1 := (fun g => bump (str1 X_SCAS k d g) 1 (-1)).
Lemma iter_snoc : forall n (f : xst -> xst) g, iter (S n) f g = f (iter n f g).
Proof. induction n as [|n IH]; intros f g; [reflexivity|]. change (iter (S (S n)) f g) with (iter (S n) f (f g)). rewrite IH. reflexivity. Qed.
Lemma scas_iter : (forall n, 0 <= n < 16 -> inr 64 (y_r g0 n)) -> forall t, let g := iter t st1 g0 in
  y_r g 7 = U 64 (y_r g0 7 + Z.of_nat t * d) /\ y_r g 1 = U 64 (y_r g0 1 - Z.of_nat t) /\
  (forall n, n <> 7 -> n <> 1 -> y_r g n = y_r g0 n) /\ y_m g = y_m g0 /\ y_f g fDF = y_f g0 fDF.
Proof.
  intros RR. induction t as [|t IH].
  - cbn [iter]. pose proof (RR 7 ltac:(lia)). pose proof (RR 1 ltac:(lia)). unfold inr, U in *. repeat split; lia.
  - intros g. unfold g. rewrite iter_snoc. set (g1 := iter t st1 g0) in *. destruct IH as (A & B & D & M & F).
    split; [|split; [|split; [|split]]].
    + transitivity (U 64 (y_r g1 7 + d)); [reflexivity|]. rewrite A. unfold U. lia.
    + transitivity (U 64 (y_r g1 1 + -1)); [reflexivity|]. rewrite B. unfold U. lia.
    + intros n N7 N1. rewrite <- D by assumption. unfold str1, bump. cbn [wr_reg sub_flags set_r set_f y_r]. destruct (Z.eqb_spec n 1); [lia|]. destruct (Z.eqb_spec n 7); [lia|]. reflexivity.
    + exact M.
    + exact F.
Qed.
Lemma scas_zf : (forall n, 0 <= n < 16 -> inr 64 (y_r g0 n)) -> forall t, y_f (iter (S t) st1 g0) fZF = Some (al =? elt t).
Proof.
  intros RR t. rewrite iter_snoc. destruct (scas_iter RR t) as (A & _ & D & M & _). set (g1 := iter t st1 g0) in *.
  transitivity (Some (zf_of (8 * k) (U (8 * k) (y_r g1 0) - rd_mem (y_m g1) (y_r g1 7) (Z.to_nat k) - 0))); [reflexivity|].
  rewrite A, M, (D 0) by lia. f_equal. pose proof (rd_mem_inr (Z.to_nat k) (y_m g0) (U 64 (y_r g0 7 + Z.of_nat t * d))) as I. set (e := rd_mem _ _ _) in *.
  replace (8 * Z.of_nat (Z.to_nat k)) with (8 * k) in I by lia.
  clearbody e. set (a := y_r g0 0). unfold zf_of, U, inr in *. clearbody a. clear - I KS. destruct KS as [-> | [-> | [-> | ->]]]; cbn [Z.mul Pos.mul] in *; lia.
Qed.
End Scas.
(** The elements compared are those at RDI, RDI+d, ...; the search stops at the
    first match (REPNE) or mismatch (REPE), or when the count is used up. *)
Theorem x86_rep_scas_search : forall `{FpuOps} c cfg kc kcp kd i s g df, str_ctx c i s g -> x_mn i = X_SCAS -> In (x_opsz i) [1; 2; 4; 8] -> x_addrsz i = 8 ->
  y_f g fDF = Some df -> xorb (x_rep i) (x_repnz i) = true -> 0 < y_r g 1 ->
  let k := x_opsz i in let d := if df then - k else k in
  let elt t := rd_mem (y_m g) (U 64 (y_r g 7 + Z.of_nat t * d)) (Z.to_nat k) in
  let hit t := Bool.eqb (y_r g 0 mod 2 ^ (8 * k) =? elt t) (x_repnz i) in
  exists j, Z.of_nat j < y_r g 1 /\ (forall t, (t < j)%nat -> hit t = false) /\ (Z.of_nat j + 1 < y_r g 1 -> hit j = true) /\
  str_lifts c cfg kc kcp kd i s (fun s' => s_reg s' (GP 1) = Some (y_r g 1 - Z.of_nat j - 1) /\ s_reg s' (GP 7) = Some (U 64 (y_r g 7 + (Z.of_nat j + 1) * d)) /\
    (forall n, 0 <= n < 16 -> n <> 1 -> n <> 7 -> s_reg s' (GP n) = Some (y_r g n)) /\ (forall x, s_mem s' x = y_m g x) /\
    flag_is s' fZF (y_r g 0 mod 2 ^ (8 * k) =? elt j)).
Proof.
  intros F c cfg kc kcp kd i s g df C MN SZ AS DF RP CX k d elt hit.
  assert (KS : k = 1 \/ k = 2 \/ k = 4 \/ k = 8) by (cbn [In] in SZ; fold k in SZ; lia).
  set (g0 := set_ip g (y_ip g + x_len i)). assert (RR : forall n, 0 <= n < 16 -> inr 64 (y_r g0 n)) by apply (xr_rr _ _ (sc_rel _ _ _ _ C)).
  set (stop := if x_repnz i then zf_set else zf_clear).
  assert (E : str_spec i g = Some (rep_iter (Z.to_nat (y_r g 1)) stop (str1 X_SCAS k d) g0)).
  { unfold str_spec. fold g0. unfold str_isa. rewrite AS, MN. replace (y_f g0 fDF) with (Some df) by (symmetry; exact DF). cbn [obind].
    assert (K : ((x_opsz i =? 1) || (x_opsz i =? 2) || (x_opsz i =? 4) || (x_opsz i =? 8)) = true) by (fold k; lia). rewrite K. cbn [negb orb Z.eqb Pos.eqb].
    unfold stop. destruct (x_rep i), (x_repnz i); try discriminate RP; reflexivity. }
  destruct (rep_iter_first (Z.to_nat (y_r g 1)) stop (str1 X_SCAS k d) g0) as (j1 & J & EI & A & B & PJ). specialize (PJ ltac:(lia)). destruct j1 as [|j]; [lia|].
  pose proof (RR 1 ltac:(lia)) as R1. change (y_r g0 1) with (y_r g 1) in R1. unfold inr in R1.
  assert (HS : forall t, stop (iter (S t) (fun g => bump (str1 X_SCAS k d g) 1 (-1)) g0) = hit t).
  { intros t. unfold stop, hit. pose proof (scas_zf g0 k d KS RR t) as Z. change (y_r g0 0) with (y_r g 0) in Z. change (rd_mem (y_m g0) (U 64 (y_r g0 7 + Z.of_nat t * d)) (Z.to_nat k)) with (elt t) in Z.
    unfold zf_set, zf_clear. destruct (x_repnz i); rewrite Z; unfold U; destruct (_ =? elt t); reflexivity. }
  exists j. split; [lia|]. split; [|split].
  - intros t T. rewrite <- HS. apply A. lia.
  - intros T. rewrite <- HS. apply B. lia.
  - destruct (x86_string_correct_partial c cfg kc kcp kd i s g _ C E) as (kk & L & X & Y). exists kk. split; [exact L|]. split; [exact X|].
    intros o XO. destruct (Y o XO) as (s' & EO & R & P & _). exists s'. split; [exact EO|]. rewrite EI in R.
    pose proof (scas_iter g0 k d RR (S j)) as (S7 & S1 & SO & SM & _). pose proof (scas_zf g0 k d KS RR j) as SZF.
    set (gE := iter (S j) _ g0) in *. split; [|split; [|split; [|split]]].
    + rewrite (xr_r _ _ R 1) by lia. f_equal. rewrite S1. change (y_r g0 1) with (y_r g 1). unfold U. lia.
    + rewrite (xr_r _ _ R 7) by lia. f_equal. rewrite S7. change (y_r g0 7) with (y_r g 7). f_equal. lia.
    + intros n N N1 N7. rewrite (xr_r _ _ R n N). f_equal. apply SO; assumption.
    + intros x. rewrite (xr_m _ _ R), SM. reflexivity.
    + apply (xr_f _ _ R). exact SZF.
Qed.
Print Assumptions x86_rep_scas_search.

(** REP STOSB fills memory. *)
Theorem x86_rep_stosb_fill : forall `{FpuOps} c cfg kc kcp kd i s g df, str_ctx c i s g -> x_mn i = X_STOS -> x_opsz i = 1 -> x_addrsz i = 8 -> y_f g fDF = Some df ->
  x_rep i = true -> x_repnz i = false -> let d := if df then -1 else 1 in
  str_lifts c cfg kc kcp kd i s (fun s' => s_reg s' (GP 1) = Some 0 /\ s_reg s' (GP 7) = Some (U 64 (y_r g 7 + y_r g 1 * d)) /\
    (forall n, 0 <= n < 16 -> n <> 1 -> n <> 7 -> s_reg s' (GP n) = Some (y_r g n)) /\
    (forall j, 0 <= j < y_r g 1 -> s_mem s' (U 64 (y_r g 7 + j * d)) = y_r g 0 mod 256) /\
    (forall x, (forall j, 0 <= j < y_r g 1 -> x <> U 64 (y_r g 7 + j * d)) -> s_mem s' x = y_m g x) /\
    (forall f b, y_f g f = Some b -> flag_is s' f b)).
Proof.
  intros F c cfg kc kcp kd i s g df C MN SZ AS DF RP RN d. set (g0 := set_ip g (y_ip g + x_len i)).
  assert (RR : forall n, 0 <= n < 16 -> inr 64 (y_r g0 n)) by apply (xr_rr _ _ (sc_rel _ _ _ _ C)).
  pose proof (RR 1 ltac:(lia)) as R1. pose proof (RR 7 ltac:(lia)) as R7. unfold inr in R1, R7. change (y_r g0 1) with (y_r g 1) in R1. change (y_r g0 7) with (y_r g 7) in R7.
  assert (E : str_spec i g = Some (rep_iter (Z.to_nat (y_r g 1)) (fun _ => false) (str1 X_STOS 1 d) g0)).
  { unfold str_spec. fold g0. unfold str_isa. rewrite AS, MN, SZ, RP, RN. replace (y_f g0 fDF) with (Some df) by (symmetry; exact DF). cbn [obind negb orb andb Z.eqb Pos.eqb]. reflexivity. }
  destruct (x86_string_correct_partial c cfg kc kcp kd i s g _ C E) as (kk & L & X & Y). exists kk. split; [exact L|]. split; [exact X|].
  intros o XO. destruct (Y o XO) as (s' & EO & R & P & _). exists s'. split; [exact EO|].
  destruct (stosb_iter df (Z.to_nat (y_r g 1)) g0 ltac:(lia) RR) as (SR & SF_ & SFS & SGS & SIP & SM). fold d in SR, SF_, SM. rewrite Z2Nat.id in SR, SM by lia.
  set (gE := rep_iter _ _ _ _) in *. clearbody gE. change (y_r g0 7) with (y_r g 7) in *. change (y_r g0 1) with (y_r g 1) in *. change (y_r g0 0) with (y_r g 0) in *.
  split; [|split; [|split; [|split; [|split]]]].
  - rewrite (xr_r _ _ R 1), SR by lia. cbn [Z.eqb Pos.eqb]. rewrite Z.sub_diag. reflexivity.
  - rewrite (xr_r _ _ R 7), SR by lia. reflexivity.
  - intros n N N1 N7. rewrite (xr_r _ _ R n N), SR by exact N. destruct (Z.eqb_spec n 7); [lia|]. destruct (Z.eqb_spec n 1); [lia|]. reflexivity.
  - intros j J. rewrite (xr_m _ _ R), SM. unfold fillb. assert (A : 0 <= U 64 (y_r g 7 + j * d) < 2 ^ 64) by (unfold U; lia).
    replace (trunc 64 ((U 64 (y_r g 7 + j * d) - y_r g 7) * d)) with j; [replace ((j <? y_r g 1) && _ && _) with true by lia; reflexivity|].
    unfold trunc, U. clear - J R1 R7 d. subst d. destruct df; lia.
  - intros x NX. rewrite (xr_m _ _ R), SM. unfold fillb. destruct ((trunc 64 ((x - y_r g 7) * d) <? y_r g 1) && (0 <=? x) && (x <? 2^64)) eqn:Q; [exfalso|reflexivity].
    apply (NX (trunc 64 ((x - y_r g 7) * d))); [unfold trunc in *; lia|]. apply andb_prop in Q as [Q Q3]. apply andb_prop in Q as [_ Q2]. unfold trunc, U. clear - Q2 Q3 R7 d. subst d. destruct df; lia.
  - intros f b EF. apply (xr_f _ _ R). rewrite SF_. exact EF.
Qed.
Print Assumptions x86_rep_stosb_fill.

(** ** 32-bit addresses *)
(** STOSB with address size 32 (Intel SDM volume 2, STOS: "ES:EDI"). *)
Definition stosb32 (df : bool) (g : xst) : xst :=
  let di := U 32 (y_r g 7) in wr_reg (set_m g (wr_mem (y_m g) di 1 (y_r g 0))) 32 7 (di + (if df then -1 else 1)).
(** The lifted code ignores the address size: whenever RDI exceeds 32 bits it
    leaves a wrong RDI. *)
Theorem x86_string_addr32_refuted : forall `{FpuOps} c cfg kc kcp kd i s g df, str_ctx c i s g -> x_mn i = X_STOS -> x_opsz i = 1 -> x_addrsz i = 4 -> x_rep i = false ->
  y_f g fDF = Some df -> 2 ^ 32 < y_r g 7 < 2 ^ 64 - 1 ->
  str_lifts c cfg kc kcp kd i s (fun s' => ~ xrel s' (stosb32 df (adv i g))).
Proof.
  intros F c cfg kc kcp kd i s g df [HA R IP] MN SZ AS RP DF DI. set (i8 := XInst X_STOS (x_op0 i) (x_op1 i) (x_op2 i) 1 8 false false (x_lock i) (x_start i) (x_len i)).
  assert (EQ : lift_x86 c cfg kc kcp None kd i = lift_x86 c cfg kc kcp None kd i8).
  { unfold lift_x86, lift_gp, lift_str. rewrite MN. cbn [i8 x_mn]. unfold LiftStos, str_code, di_of, rep_mode, rep_head, rep_end_plain, str_di, str_si, x_end. rewrite MN, RP, SZ. cbn [i8 x_mn x_opsz x_rep x_repnz x_start x_len andb]. rewrite andb_false_r. reflexivity. }
  assert (C8 : str_ctx c i8 s g) by (split; assumption).
  destruct (x86_string_correct_partial c cfg kc kcp kd i8 s g (str1 X_STOS 1 (if df then -1 else 1) (set_ip g (y_ip g + x_len i))) C8) as (k & L & X & Y).
  { unfold str_spec, str_isa. cbn [i8 x_mn x_opsz x_addrsz x_rep x_repnz x_len Z.eqb Pos.eqb orb andb negb set_ip y_f]. rewrite DF. reflexivity. }
  exists k. split; [rewrite EQ; exact L|]. split; [exact X|]. intros o XO. destruct (Y o XO) as (s' & EO & R' & _). exists s'. split; [exact EO|]. intros R2.
  pose proof (xr_r _ _ R' 7 ltac:(lia)) as A. pose proof (xr_r _ _ R2 7 ltac:(lia)) as B. rewrite A in B. injection B as B.
  cbn [str1 bump adv stosb32 wr_reg set_r set_m set_ip y_r Z.eqb Pos.eqb] in B. unfold reg_merge, U in B. cbn [Z.eqb Pos.eqb] in B. destruct df; lia.
Qed.
Print Assumptions x86_string_addr32_refuted.

(** ** The hypotheses are met *)
Definition si_ex (m : xmn) (k a : Z) (rep repnz : bool) : xinst := XInst m XNone XNone XNone k a rep repnz false 0x1000 2.
Definition r_str (n : Z) : Z := if n =? 1 then 5 else if n =? 6 then 0x2000 else if n =? 7 then 2 ^ 64 - 3 else 0x2123456789abcdef.
Lemma sctx_ex : forall m k a rep repnz r f, str_ctx c_x (si_ex m k a rep repnz) (xst_of (gex r f)) (gex r f).
Proof. intros. split; [reflexivity|apply xrel_ex|reflexivity]. Qed.
(** The architecture defines all instructions, sizes and prefixes, in both directions. *)
Example x86_string_correct_nv : forall b, forallb (fun m => forallb (fun k => forallb (fun rp => match str_spec (si_ex m k 8 (fst rp) (snd rp)) (gex r_str (all_set b)) with Some _ => true | None => false end)
     (if match m with X_SCAS | X_CMPS => true | _ => false end then [(false, false); (true, false); (false, true)] else [(false, false); (true, false)])) [1; 2; 4; 8]) [X_MOVS; X_STOS; X_LODS; X_SCAS; X_CMPS] = true.
Proof. intros [|]; vm_compute; reflexivity. Qed.
Example x86_rep_zero_nv : str_ctx c_x (si_ex X_CMPS 4 8 false true) (xst_of (gex (fun _ => 0) (all_set true))) (gex (fun _ => 0) (all_set true)) /\ y_r (gex (fun _ => 0) (all_set true)) 1 = 0.
Proof. split; [apply sctx_ex|reflexivity]. Qed.
Example x86_rep_scas_search_nv : str_ctx c_x (si_ex X_SCAS 1 8 false true) (xst_of (gex r_str (all_set false))) (gex r_str (all_set false)) /\ 0 < y_r (gex r_str (all_set false)) 1.
Proof. split; [apply sctx_ex|reflexivity]. Qed.
Example x86_rep_stosb_fill_nv : str_ctx c_x (si_ex X_STOS 1 8 true false) (xst_of (gex r_str (all_set true))) (gex r_str (all_set true)) /\ y_r (gex r_str (all_set true)) 1 = 5.
Proof. split; [apply sctx_ex|reflexivity]. Qed.
Example x86_string_addr32_nv : str_ctx c_x (si_ex X_STOS 1 4 false false) (xst_of (gex r_str (all_set true))) (gex r_str (all_set true)) /\ 2 ^ 32 < y_r (gex r_str (all_set true)) 7 < 2 ^ 64 - 1.
Proof. split; [apply sctx_ex|vm_compute; split; reflexivity]. Qed.
