(** Simulation of the string instructions. *)

From Coq Require Import ZArith Lia ZifyBool List Bool.
From Verif Require Import Bits IR Facet Dsl Rv64 Rv64Spec Rv64Sim Rv64Arith Rv64Int X86 X86Run X86Spec X86Arith X86Sim X86Ops X86Gp X86StrSpec.
Import ListNotations.
Open Scope Z_scope.
Ltac Zify.zify_post_hook ::= Z.div_mod_to_equations.

Ltac gle_flags := repeat split; auto; let f := fresh in let b := fresh in intros f b; destruct f; cbn; auto.

(** ** Executions are unique *)
Section Det.
Context `{FpuOps}.
Variable c : cenv.
Ltac same := repeat match goal with
  | A : ?x = Ok _, B : ?x = Ok _ |- _ => rewrite A in B; injection B as <-
  | A : ?x = Ok _, B : ?x = UB |- _ => rewrite A in B; discriminate
  | A : Ok _ = UB |- _ => discriminate
  | A : UB = Ok _ |- _ => discriminate
  end.
Lemma loop_det : forall phi b a s o1, loop c phi b a s o1 -> forall o2, loop c phi b a s o2 -> o1 = o2.
Proof.
  intros phi b a s o1 L. induction L; intros o2 L2; inversion L2; subst; same; try reflexivity; try (rewrite H1 in *; congruence); try congruence; auto.
Qed.
Lemma xrun_det : forall s k o1 o2, xrun c s k o1 -> xrun c s k o2 -> o1 = o2.
Proof.
  intros s k o1 o2 A B. inversion A; subst; inversion B; subst; try reflexivity; try contradiction;
    repeat match goal with X : _ /\ _ |- _ => destruct X end; same; try congruence;
    try match goal with X : loop _ _ _ _ ?s _, Y : loop _ _ _ _ ?s _ |- _ => pose proof (loop_det _ _ _ _ _ X _ Y) as Q; (discriminate Q || injection Q as <-) end; same; try congruence.
Qed.
End Det.

Lemma merge2 : forall w' o v v', okw w' = true -> reg_merge w' (reg_merge w' o v) v' = reg_merge w' o v'.
Proof. intros w' o v v' O. unfold reg_merge, U. okw_split O; cbn [Z.eqb Pos.eqb]; lia. Qed.

(** Iterated byte stores. *)
Definition fillb (m : Z -> Z) (a dd n v x : Z) : Z := if (trunc 64 ((x - a) * dd) <? n) && (0 <=? x) && (x <? 2^64) then v else m x.
Lemma wr_mem1 : forall m a v x, inr 64 a -> wr_mem m a 1 v x = if x =? a then trunc 8 v else m x.
Proof.
  intros m a v x I. unfold wr_mem, inr, U in *. destruct (Z.eqb_spec x a) as [E|N].
  - subst x. rewrite Z.sub_diag. change (0 mod 2^64) with 0. change (256^0) with 1. rewrite Z.div_1_r.
    replace ((0 <? Z.of_nat 1) && (0 <=? a) && (a <? 2^64)) with true by lia. reflexivity.
  - destruct ((0 <=? x) && (x <? 2^64)) eqn:X; rewrite <- andb_assoc, X; [|rewrite andb_false_r; reflexivity].
    replace ((x - a) mod 2^64 <? Z.of_nat 1) with false by lia. reflexivity.
Qed.
Lemma stosb_iter : forall df n g, Z.of_nat n < 2^64 -> (forall r, 0 <= r < 16 -> inr 64 (y_r g r)) ->
  let dd := if df : bool then -1 else 1 in
  let g' := rep_iter n (fun _ => false) (str1 X_STOS 1 dd) g in
  (forall r, 0 <= r < 16 -> y_r g' r = if r =? 7 then U 64 (y_r g 7 + Z.of_nat n * dd) else if r =? 1 then U 64 (y_r g 1 - Z.of_nat n) else y_r g r) /\
  y_f g' = y_f g /\ y_fs g' = y_fs g /\ y_gs g' = y_gs g /\ y_ip g' = y_ip g /\
  (forall x, y_m g' x = fillb (y_m g) (y_r g 7) dd (Z.of_nat n) (trunc 8 (y_r g 0)) x).
Proof.
  intros df. induction n as [|n IH]; intros g N I dd g'.
  - subst g'. cbn [rep_iter]. split; [|repeat split; auto].
    + intros r R. specialize (I r R). unfold inr, U in *. destruct (Z.eqb_spec r 7) as [->|]; [lia|]. destruct (Z.eqb_spec r 1) as [->|]; lia.
    + intros x. unfold fillb. replace (trunc 64 _ <? Z.of_nat 0) with false; [reflexivity|]. symmetry. apply Z.ltb_ge. unfold trunc. lia.
  - cbn [rep_iter] in g'. set (g1 := bump (str1 X_STOS 1 dd g) 1 (-1)) in *.
    assert (I1 : forall r, 0 <= r < 16 -> inr 64 (y_r g1 r)).
    { intros r R. specialize (I r R). unfold g1, str1, bump. cbn [wr_reg set_r set_m y_r]. unfold reg_merge, U, inr in *. cbn [Z.eqb Pos.eqb]. destruct (r =? 1); [lia|]. destruct (r =? 7); lia. }
    destruct (IH g1 ltac:(lia) I1) as (A & B & C & D & E & F). fold dd in A, B, C, D, E, F. fold g' in A, B, C, D, E, F.
    assert (G7 : y_r g1 7 = U 64 (y_r g 7 + dd)) by reflexivity. assert (G1 : y_r g1 1 = U 64 (y_r g 1 + -1)) by reflexivity. assert (G0 : y_r g1 0 = y_r g 0) by reflexivity.
    split; [|repeat split; auto].
    + intros r R. rewrite (A r R). rewrite G7, G1. destruct (Z.eqb_spec r 7) as [->|N7]; [unfold U; clear - dd; subst dd; destruct df; lia|].
      destruct (Z.eqb_spec r 1) as [->|N1]; [unfold U; lia|]. unfold g1, str1, bump. cbn [wr_reg set_r set_m y_r]. rewrite (proj2 (Z.eqb_neq _ _) N7), (proj2 (Z.eqb_neq _ _) N1). reflexivity.
    + intros x. rewrite F, G7, G0. unfold fillb. assert (M1 : y_m g1 x = if x =? y_r g 7 then trunc 8 (y_r g 0) else y_m g x).
      { unfold g1, str1, bump. cbn [wr_reg set_r set_m y_m]. change (Z.to_nat 1) with 1%nat. apply wr_mem1. apply (I 7). lia. }
      rewrite M1. specialize (I 7 ltac:(lia)). unfold inr, U in *.
      destruct ((0 <=? x) && (x <? 2^64)) eqn:XR.
      * rewrite <- !andb_assoc, XR, !andb_true_r. unfold trunc. destruct (Z.eqb_spec x (y_r g 7)) as [EX|NX].
        -- replace ((x - y_r g 7) * dd) with 0 by (rewrite EX; lia). change (0 mod 2^64) with 0. replace (0 <? Z.of_nat (S n)) with true by lia. match goal with |- (if ?bb then _ else _) = _ => destruct bb end; reflexivity.
        -- replace (((x - (y_r g 7 + dd) mod 2 ^ 64) * dd) mod 2 ^ 64 <? Z.of_nat n) with (((x - y_r g 7) * dd) mod 2 ^ 64 <? Z.of_nat (S n)); [reflexivity|].
           assert (X : 0 <= x < 2^64) by lia. clear - X NX I. subst dd. destruct df; lia.
      * rewrite <- !andb_assoc, XR, !andb_false_r. destruct (Z.eqb_spec x (y_r g 7)); [lia|reflexivity].
Qed.

(** ** Loops *)
Section Str.
Context `{FpuOps}.
Variable c : cenv.
Hypothesis HA : c_arch c = X86_64.
Notation G := (G c).
Notation vals := (vals c).
Notation done := (done c).
Variables (i : xinst) (g0 : xst) (rt df : bool).
Hypothesis IP : y_ip g0 = addr_pc_base c (x_end i).
Hypothesis DF0 : y_f g0 fDF = Some df.
Hypothesis KS : x_opsz i = 1 \/ x_opsz i = 2 \/ x_opsz i = 4 \/ x_opsz i = 8.
Hypothesis RR0 : forall n, 0 <= n < 16 -> inr 64 (y_r g0 n).
Notation p := (PcConst (x_end i)).
Notation k := (x_opsz i).
Notation w := (8 * x_opsz i).
Notation d := (if df then - k else k).
Notation adj := (trunc 64 (if df then -1 else 1)).
Notation step := (str1 (x_mn i) k d).
Definition is_cmp : bool := match x_mn i with X_SCAS | X_CMPS => true | _ => false end.
Definition is_str : bool := match x_mn i with X_SCAS | X_CMPS | X_MOVS | X_STOS | X_LODS => true | _ => false end.

Lemma w_ok : okw w = true.
Proof. destruct KS as [-> | [-> | [-> | ->]]]; reflexivity. Qed.
Lemma w_bytes : bytes_of w = Z.to_nat k.
Proof. destruct KS as [-> | [-> | [-> | ->]]]; reflexivity. Qed.
Lemma G_nil : forall g p0 vs (Q : st -> Prop), (forall s, At g p0 vs rt s -> Q s) -> G g p0 vs rt [] Q.
Proof. intros g p0 vs Q K s A. exists s. split; [reflexivity|auto]. Qed.
Lemma gep_adj : forall a, trunc 64 (a + adj * k) = U 64 (a + d).
Proof.
  intros a. rewrite <- trunc_add_r, trunc_mul_l, trunc_add_r by lia. change U with trunc. f_equal. destruct df; lia.
Qed.

(** What stays the same while the loop runs. *)
Record Fr (g : xst) : Prop := {
  fr_r : forall n, 0 <= n < 16 -> n <> 1 -> (n = 7 -> str_di i = false) -> (n = 6 -> str_si i = false) -> (n = 0 -> x_mn i <> X_LODS) -> y_r g n = y_r g0 n;
  fr_rr : forall n, 0 <= n < 16 -> inr 64 (y_r g n);
  fr_fs : y_fs g = y_fs g0;
  fr_gs : y_gs g = y_gs g0;
  fr_ip : y_ip g = y_ip g0;
  fr_df : y_f g fDF = Some df;
  fr_f : is_cmp = false -> forall f, y_f g f = y_f g0 f;
  fr_ax : forall v, reg_merge w (y_r g 0) v = reg_merge w (y_r g0 0) v;
}.
Lemma inr_wr : forall g w' r v, okw w' = true -> (forall n, 0 <= n < 16 -> inr 64 (y_r g n)) -> forall n, 0 <= n < 16 -> inr 64 (y_r (wr_reg g w' r v) n).
Proof.
  intros g w' r v O R n N. cbn [wr_reg set_r y_r]. destruct (n =? r) eqn:Q; [|auto]. assert (r = n) as -> by lia. specialize (R n N). unfold inr, reg_merge, U in *.
  okw_split O; cbn [Z.eqb Pos.eqb]; lia.
Qed.
Lemma fr_step : forall g, is_str = true -> Fr g -> Fr (bump (step g) 1 (-1)).
Proof.
  intros g IS [R RR FS GS IP' D F AX]. assert (w_ok := w_ok). assert (O64 : okw 64 = true) by reflexivity.
  assert (RRs : forall n, 0 <= n < 16 -> inr 64 (y_r (step g) n)).
  { unfold str1, is_str, bump in *. destruct (x_mn i); try discriminate; cbn [sub_flags set_f y_r]; repeat apply inr_wr; auto. }
  split.
  - intros n N N1 N7 N6 N0. transitivity (y_r (step g) n).
    { unfold bump. cbn [wr_reg set_r y_r]. destruct (n =? 1) eqn:Q; [lia|reflexivity]. }
    rewrite <- (R n N N1 N7 N6 N0). unfold str1, is_str, bump, str_di, str_si in *.
    destruct (x_mn i); try discriminate; cbn [sub_flags set_f y_r wr_reg set_r set_m];
      repeat match goal with |- context [n =? ?z] => destruct (Z.eqb_spec n z); [exfalso; first [specialize (N7 ltac:(assumption)); discriminate | specialize (N6 ltac:(assumption)); discriminate | apply (N0 ltac:(assumption)); reflexivity]|] end; reflexivity.
  - apply inr_wr; auto.
  - rewrite <- FS. unfold str1. destruct (x_mn i); reflexivity.
  - rewrite <- GS. unfold str1. destruct (x_mn i); reflexivity.
  - rewrite <- IP'. unfold str1. destruct (x_mn i); reflexivity.
  - rewrite <- D. unfold str1. destruct (x_mn i); reflexivity.
  - intros C f. rewrite <- (F C). unfold str1, is_cmp in *. destruct (x_mn i); try discriminate; reflexivity.
  - intros v. rewrite <- (AX v). clear - w_ok. unfold str1. destruct (x_mn i); try reflexivity. unfold bump. cbn [wr_reg set_r y_r Z.eqb Pos.eqb].
    apply merge2. assumption.
Qed.
Lemma fr_init : Fr g0.
Proof. split; auto. Qed.

(** Temporaries holding the flags before a conditional repeat. *)
Definition slot (f : xflag) : nat := match f with fOF => 5 | fSF => 6 | fZF => 7 | fAF => 8 | fPF => 9 | fCF => 10 | fDF => 999 end.
Definition saved (vs : nat -> option rv) : Prop :=
  forall f, f <> fDF -> exists v, vs (slot f) = Some v /\ ty_of v = TInt 1 /\ forall b, y_f g0 f = Some b -> v = V (TInt 1) (b2z b).
(** Values set in the header that the loop keeps. *)
Definition kept (vs : nat -> option rv) : Prop :=
  vs v_adj = Some (V (TInt 64) adj) /\
  match x_mn i with
  | X_STOS => vs v_old = Some (V (TInt w) (U w (y_r g0 0)))
  | X_SCAS => vs v_a = Some (V (TInt w) (U w (y_r g0 0))) /\ saved vs
  | X_CMPS => saved vs
  | _ => True
  end.
(** At the start of the loop block. *)
Definition VI (g : xst) (vs : nat -> option rv) : Prop :=
  kept vs /\ (str_di i = true -> vs l_di = Some (V TPtr (y_r g 7))) /\ (str_si i = true -> vs l_si = Some (V TPtr (y_r g 6))) /\
  vs l_cnt = Some (V (TInt 64) (y_r g 1)).
(** At its end. *)
Definition VB (g : xst) (vs : nat -> option rv) : Prop :=
  kept vs /\ (str_di i = true -> vs n_di = Some (V TPtr (y_r g 7))) /\ (str_si i = true -> vs n_si = Some (V TPtr (y_r g 6))) /\
  vs n_cnt = Some (V (TInt 64) (y_r g 1)) /\
  (is_cmp = true -> exists a b, vs v_a = Some (V (TInt w) a) /\ vs v_b = Some (V (TInt w) b) /\ inr w a /\ inr w b /\
     forall f, y_f g f = y_f (sub_flags w a b 0 false g0) f) /\
  (x_mn i = X_LODS -> exists v, vs v_new = Some (V (TInt (if k =? 4 then 64 else w)) v) /\ inr (if k =? 4 then 64 else w) v /\
     y_r g 0 = reg_merge (if k =? 4 then 64 else w) (y_r g0 0) v).

(** The loop block's code. *)
Definition bodyc (b : list stm) : list stm :=
  b ++ (if str_di i then [SLet n_di (eGep k (vX l_di) (vX v_adj))] else []) ++
  (if str_si i then [SLet n_si (eGep k (vX l_si) (vX v_adj))] else []) ++
  [SLet n_cnt (eSub (vX l_cnt) (cI 64 1))].
Definition body_of : list stm :=
  match x_mn i with
  | X_LODS => [SLoad v_new (TInt w) (vX l_si)] ++ (if k =? 4 then [SLet v_new (eZExt 64 (vX v_new))] else [])
  | X_STOS => [SStore (vX v_old) (vX l_di)]
  | X_MOVS => [SLoad v_new (TInt w) (vX l_si); SStore (vX v_new) (vX l_di)]
  | X_SCAS => [SLoad v_b (TInt w) (vX l_di)]
  | _ => [SLoad v_a (TInt w) (vX l_si); SLoad v_b (TInt w) (vX l_di)]
  end.
Notation at_ g vs := (At (set_m g0 (y_m g)) p vs rt).

Lemma saved_upd : forall vs x v, saved vs -> (11 <= x)%nat -> (x < 999)%nat -> saved (upd_var vs x v).
Proof.
  intros vs x v S L L' f N. destruct (S f N) as (u & A & B & D). exists u. split; [|auto]. unfold upd_var. destruct (Nat.eqb_spec x (slot f)) as [E|E]; [|exact A].
  exfalso. destruct f; cbn [slot] in E; lia.
Qed.
Ltac sup := repeat (apply saved_upd; [|unfold v_new, v_a, v_b, n_di, n_si, n_cnt; lia|unfold v_new, v_a, v_b, n_di, n_si, n_cnt; lia]); assumption.
Ltac var := apply v_var; reflexivity.
Ltac vh E := apply v_var; exact E.

Lemma bump_r : forall g r dd, y_r (bump g r dd) r = U 64 (y_r g r + dd).
Proof. intros. unfold bump. cbn [wr_reg set_r y_r]. rewrite Z.eqb_refl. reflexivity. Qed.

Lemma G_tail : forall g g' vs (Q : st -> Prop), Fr g' -> y_m g' = y_m g -> vs v_adj = Some (V (TInt 64) adj) ->
  forall (di si : Z), (str_di i = true -> vs l_di = Some (V TPtr di) /\ y_r g' 7 = U 64 (di + d)) -> (str_si i = true -> vs l_si = Some (V TPtr si) /\ y_r g' 6 = U 64 (si + d)) ->
  forall cnt, vs l_cnt = Some (V (TInt 64) cnt) -> y_r g' 1 = U 64 (cnt - 1) ->
  (forall vs', (forall x, x <> n_di -> x <> n_si -> x <> n_cnt -> vs' x = vs x) -> (str_di i = true -> vs' n_di = Some (V TPtr (y_r g' 7))) -> (str_si i = true -> vs' n_si = Some (V TPtr (y_r g' 6))) ->
    vs' n_cnt = Some (V (TInt 64) (y_r g' 1)) -> forall s, at_ g' vs' s -> Q s) ->
  G (set_m g0 (y_m g)) p vs rt ((if str_di i then [SLet n_di (eGep k (vX l_di) (vX v_adj))] else []) ++
  (if str_si i then [SLet n_si (eGep k (vX l_si) (vX v_adj))] else []) ++ [SLet n_cnt (eSub (vX l_cnt) (cI 64 1))]) Q.
Proof.
  intros g g' vs Q FR EM VA di si HD HS cnt VC EC K. rewrite <- EM.
  assert (SUB : forall vs1, vs1 l_cnt = vs l_cnt -> vals (set_m g0 (y_m g')) p vs1 (eSub (vX l_cnt) (cI 64 1)) (V (TInt 64) (y_r g' 1))).
  { intros vs1 E1. rewrite EC. eapply v_bin; [apply v_var; rewrite E1; exact VC|apply v_cI|]. cbn [ibin]. rewrite trunc_sub_r by lia. reflexivity. }
  destruct (str_di i) eqn:SD, (str_si i) eqn:SS; cbn [app].
  - destruct (HD eq_refl) as [D1 D2]. destruct (HS eq_refl) as [S1 S2].
    eapply G_let; [eapply v_gep; [vh D1|vh VA]|]. eapply G_let; [eapply v_gep; [vh S1|vh VA]|]. eapply G_let; [apply SUB; reflexivity|].
    apply G_nil. rewrite !gep_adj, <- D2, <- S2. apply K; try reflexivity. intros x A B C. unfold upd_var. rewrite !(proj2 (Nat.eqb_neq _ _)) by congruence. reflexivity.
  - destruct (HD eq_refl) as [D1 D2].
    eapply G_let; [eapply v_gep; [vh D1|vh VA]|]. eapply G_let; [apply SUB; reflexivity|].
    apply G_nil. rewrite !gep_adj, <- D2. apply K; try reflexivity; try discriminate. intros x A B C. unfold upd_var. rewrite !(proj2 (Nat.eqb_neq _ _)) by congruence. reflexivity.
  - destruct (HS eq_refl) as [S1 S2].
    eapply G_let; [eapply v_gep; [vh S1|vh VA]|]. eapply G_let; [apply SUB; reflexivity|].
    apply G_nil. rewrite !gep_adj, <- S2. apply K; try reflexivity; try discriminate. intros x A B C. unfold upd_var. rewrite !(proj2 (Nat.eqb_neq _ _)) by congruence. reflexivity.
  - eapply G_let; [apply SUB; reflexivity|].
    apply G_nil. apply K; try reflexivity; try discriminate. intros x A B C. unfold upd_var. rewrite !(proj2 (Nat.eqb_neq _ _)) by congruence. reflexivity.
Qed.

Lemma kept_frame : forall vs vs', kept vs -> (forall x, x = v_adj \/ x = v_old \/ (x = v_a /\ x_mn i = X_SCAS) \/ (5 <= x <= 10)%nat -> vs' x = vs x) -> kept vs'.
Proof.
  intros vs vs' [A B] E. split; [rewrite E by auto; exact A|].
  assert (SV : saved vs -> saved vs').
  { intros S f N. destruct (S f N) as (v & X & Y & Z). exists v. split; [|auto]. rewrite E; [exact X|]. right; right; right. destruct f; cbn [slot]; try lia; congruence. }
  destruct (x_mn i) eqn:MN; auto.
  - rewrite E by auto. exact B.
  - destruct B as [B1 B2]. split; [|auto]. rewrite E; auto.
Qed.
Lemma wm_merge : forall o v, inr w v -> reg_merge w o v = reg_merge (if k =? 4 then 64 else w) o v.
Proof.
  intros o v I. destruct KS as [E | [E | [E | E]]]; rewrite E in *; try reflexivity. cbn [Z.eqb Pos.eqb]. unfold reg_merge, U, inr in *. cbn [Z.mul Pos.mul Z.eqb Pos.eqb] in *. lia.
Qed.
Lemma inr_rd : forall m a, inr w (rd_mem m a (Z.to_nat k)).
Proof.
  intros m a. pose proof (rd_mem_inr (Z.to_nat k) m a) as R. unfold inr in *. replace w with (8 * Z.of_nat (Z.to_nat k)) by lia. exact R.
Qed.
Ltac unk VI_ := destruct VI_ as ((VA & KP) & VD & VS & VC).
Lemma G_body : forall g vs, is_str = true -> Fr g -> VI g vs ->
  G (set_m g0 (y_m g)) p vs rt (bodyc body_of) (fun s' => exists vs', at_ (bump (step g) 1 (-1)) vs' s' /\ VB (bump (step g) 1 (-1)) vs').
Proof.
  intros g vs IS FR VI_. pose proof (fr_step g IS FR) as FR'. pose proof VI_ as ((VA & KP) & VD & VS & VC). pose proof w_ok as WO. pose proof w_bytes as WB.
  assert (E1 : y_r (bump (step g) 1 (-1)) 1 = U 64 (y_r g 1 - 1)).
  { rewrite bump_r. unfold str1. destruct (x_mn i); reflexivity. }
  assert (E7 : str_di i = true -> y_r (bump (step g) 1 (-1)) 7 = U 64 (y_r g 7 + d)).
  { intros D. unfold str1, str_di, is_str, bump in *. destruct (x_mn i); try discriminate; reflexivity. }
  assert (E6 : str_si i = true -> y_r (bump (step g) 1 (-1)) 6 = U 64 (y_r g 6 + d)).
  { intros D. unfold str1, str_si, is_str, bump in *. destruct (x_mn i); try discriminate; reflexivity. }
  assert (KV : kept vs) by (apply VI_).
  assert (C : x_mn i = X_LODS \/ x_mn i = X_STOS \/ x_mn i = X_MOVS \/ x_mn i = X_SCAS \/ x_mn i = X_CMPS).
  { unfold is_str in IS. destruct (x_mn i); try discriminate IS; auto. }
  unfold bodyc, body_of. destruct C as [MN | [MN | [MN | [MN | MN]]]]; rewrite MN in *.
  - (* LODS *)
    assert (SD : str_di i = false) by (unfold str_di; rewrite MN; reflexivity). assert (SS : str_si i = true) by (unfold str_si; rewrite MN; reflexivity).
    set (g' := bump (str1 X_LODS k d g) 1 (-1)) in *. specialize (VS SS). 
    cbn [app]. eapply G_load; [vh VS|]. rewrite WB. cbn [set_m y_m].
    set (v := rd_mem (y_m g) (y_r g 6) (Z.to_nat k)).
    assert (K0 : forall vs1, vs1 v_new = Some (V (TInt (if k =? 4 then 64 else w)) v) -> (forall x, x <> v_new -> vs1 x = vs x) ->
      G (set_m g0 (y_m g)) p vs1 rt ((if str_di i then [SLet n_di (eGep k (vX l_di) (vX v_adj))] else []) ++
       (if str_si i then [SLet n_si (eGep k (vX l_si) (vX v_adj))] else []) ++ [SLet n_cnt (eSub (vX l_cnt) (cI 64 1))])
       (fun s' : st => exists vs' : nat -> option rv, at_ g' vs' s' /\ VB g' vs')).
    { intros vs1 NV FV. eapply (G_tail g g' vs1 _ FR' eq_refl) with (di := 0) (si := y_r g 6) (cnt := y_r g 1).
      - rewrite FV by discriminate. exact VA.
      - rewrite SD. discriminate.
      - intros _. split; [|auto]. rewrite FV by discriminate. exact VS.
      - rewrite FV by discriminate. exact VC.
      - exact E1.
      - intros vs' F D' S' C' s A. exists vs'. split; [exact A|]. unfold VB. split; [|split; [exact D'|split; [exact S'|split; [exact C'|split]]]].
        + eapply kept_frame; [exact KV|]. intros x X. rewrite MN in X. rewrite F, FV; [reflexivity|..]; intros ->; unfold v_new, v_old, v_adj, n_di, n_si, n_cnt in X;
            destruct X as [X|[X|[[X ?]|X]]]; try discriminate; lia.
        + unfold is_cmp. rewrite MN. discriminate.
        + intros _. exists v. rewrite F by discriminate. rewrite NV. split; [reflexivity|]. split.
          * pose proof (inr_rd (y_m g) (y_r g 6)) as R. fold v in R. destruct KS as [E | [E | [E | E]]]; rewrite E in *; try exact R. cbn [Z.eqb Pos.eqb]. unfold inr in *. cbn in *. lia.
          * change (y_r g' 0) with (reg_merge w (y_r g 0) v). rewrite (fr_ax _ FR). apply wm_merge. apply inr_rd. }
    destruct (k =? 4) eqn:K4; cbn [app].
    + eapply G_let; [eapply v_zext; [var|lia]|]. apply K0; [reflexivity|]. intros x X. unfold upd_var. rewrite !(proj2 (Nat.eqb_neq _ _)) by congruence. reflexivity.
    + apply K0; [reflexivity|]. intros x X. unfold upd_var. rewrite !(proj2 (Nat.eqb_neq _ _)) by congruence. reflexivity.
  - (* STOS *)
    assert (SD : str_di i = true) by (unfold str_di; rewrite MN; reflexivity). assert (SS : str_si i = false) by (unfold str_si; rewrite MN; reflexivity).
    set (g' := bump (str1 X_STOS k d g) 1 (-1)) in *. specialize (VD SD). cbn [app].
    eapply G_store with (v := y_r g 0); [vh KP|vh VD|exact WO| |].
    { change U with trunc. f_equal. symmetry. apply (fr_r _ FR); try lia; try discriminate. rewrite MN. discriminate. }
    rewrite WB. cbn [set_m y_m].
    eapply (G_tail g' g' vs _ FR' eq_refl) with (di := y_r g 7) (si := 0) (cnt := y_r g 1); auto.
    + rewrite SS. discriminate.
    + intros vs' F D' S' C' s A. exists vs'. split; [exact A|]. unfold VB. split; [|split; [exact D'|split; [exact S'|split; [exact C'|split]]]].
      * eapply kept_frame; [exact KV|]. intros x X. rewrite F; [reflexivity|..]; intros ->; rewrite MN in X; unfold v_new, v_old, v_adj, n_di, n_si, n_cnt in X;
            destruct X as [X|[X|[[X ?]|X]]]; try discriminate; lia.
      * unfold is_cmp. rewrite MN. discriminate.
      * rewrite MN. discriminate.
  - (* MOVS *)
    assert (SD : str_di i = true) by (unfold str_di; rewrite MN; reflexivity). assert (SS : str_si i = true) by (unfold str_si; rewrite MN; reflexivity).
    set (g' := bump (str1 X_MOVS k d g) 1 (-1)) in *. specialize (VD SD). specialize (VS SS). cbn [app].
    eapply G_load; [vh VS|]. rewrite WB. cbn [set_m y_m].
    eapply G_store with (v := rd_mem (y_m g) (y_r g 6) (Z.to_nat k)); [var|apply v_var; exact VD|exact WO|symmetry; apply trunc_small; apply inr_rd|].
    rewrite WB. cbn [set_m y_m].
    eapply (G_tail g' g' _ _ FR' eq_refl) with (di := y_r g 7) (si := y_r g 6) (cnt := y_r g 1); auto.
    intros vs' F D' S' C' s A. exists vs'. split; [exact A|]. unfold VB. split; [|split; [exact D'|split; [exact S'|split; [exact C'|split]]]].
    + eapply kept_frame; [exact KV|]. intros x X. rewrite F; [|intros ->; rewrite MN in X; unfold v_new, v_old, v_adj, n_di, n_si, n_cnt in X;
            destruct X as [X|[X|[[X ?]|X]]]; try discriminate; lia ..].
      unfold upd_var. rewrite (proj2 (Nat.eqb_neq _ _)); [reflexivity|]. intros <-. rewrite MN in X. unfold v_new, v_old, v_adj in X; destruct X as [X|[X|[[X ?]|X]]]; try discriminate; lia.
    + unfold is_cmp. rewrite MN. discriminate.
    + rewrite MN. discriminate.
  - (* SCAS *)
    assert (SD : str_di i = true) by (unfold str_di; rewrite MN; reflexivity). assert (SS : str_si i = false) by (unfold str_si; rewrite MN; reflexivity).
    set (g' := bump (str1 X_SCAS k d g) 1 (-1)) in *. specialize (VD SD). cbn [app].
    eapply G_load; [vh VD|]. rewrite WB. cbn [set_m y_m].
    eapply (G_tail g g' _ _ FR' eq_refl) with (di := y_r g 7) (si := 0) (cnt := y_r g 1); auto.
    { rewrite SS. discriminate. }
    intros vs' F D' S' C' s A. exists vs'. split; [exact A|]. unfold VB. split; [|split; [exact D'|split; [exact S'|split; [exact C'|split]]]].
    + eapply kept_frame; [exact KV|]. intros x X. rewrite F; [|intros ->; rewrite MN in X; unfold v_a, v_b, v_new, v_old, v_adj, n_di, n_si, n_cnt in X;
            destruct X as [X|[X|[[X ?]|X]]]; try discriminate; lia ..].
      unfold upd_var. rewrite (proj2 (Nat.eqb_neq _ _)); [reflexivity|]. intros <-. rewrite MN in X. unfold v_a, v_b, v_new, v_old, v_adj in X; destruct X as [X|[X|[[X ?]|X]]]; try discriminate; lia.
    + intros _. exists (U w (y_r g0 0)), (rd_mem (y_m g) (y_r g 7) (Z.to_nat k)). rewrite !F by discriminate. split; [apply KP|]. split; [reflexivity|].
      split; [apply trunc_range; pose proof (okw_pos w WO); lia|]. split; [apply inr_rd|].
      intros f. replace (y_r g0 0) with (y_r g 0) by (apply (fr_r _ FR); try lia; try discriminate; rewrite MN; discriminate).
      unfold g', bump, str1. cbn [wr_reg sub_flags set_r set_f y_r y_f]. destruct f; try reflexivity. rewrite DF0. apply (fr_df _ FR).
    + rewrite MN. discriminate.
  - (* CMPS *)
    assert (SD : str_di i = true) by (unfold str_di; rewrite MN; reflexivity). assert (SS : str_si i = true) by (unfold str_si; rewrite MN; reflexivity).
    set (g' := bump (str1 X_CMPS k d g) 1 (-1)) in *. specialize (VD SD). specialize (VS SS). cbn [app].
    eapply G_load; [vh VS|]. rewrite WB. cbn [set_m y_m].
    eapply G_load; [apply v_var; exact VD|]. rewrite WB. cbn [set_m y_m].
    eapply (G_tail g g' _ _ FR' eq_refl) with (di := y_r g 7) (si := y_r g 6) (cnt := y_r g 1); auto.
    intros vs' F D' S' C' s A. exists vs'. split; [exact A|]. unfold VB. split; [|split; [exact D'|split; [exact S'|split; [exact C'|split]]]].
    + eapply kept_frame; [exact KV|]. intros x X. rewrite F; [|intros ->; rewrite MN in X; unfold v_a, v_b, v_new, v_old, v_adj, n_di, n_si, n_cnt in X;
            destruct X as [X|[X|[[X ?]|X]]]; try discriminate; lia ..].
      unfold upd_var. rewrite !(proj2 (Nat.eqb_neq _ _)); [reflexivity|..]; intros <-; rewrite MN in X; unfold v_a, v_b, v_new, v_old, v_adj in X; destruct X as [X|[X|[[X ?]|X]]]; try discriminate; lia.
    + intros _. exists (rd_mem (y_m g) (y_r g 6) (Z.to_nat k)), (rd_mem (y_m g) (y_r g 7) (Z.to_nat k)). rewrite !F by discriminate. split; [reflexivity|]. split; [reflexivity|].
      split; [apply inr_rd|]. split; [apply inr_rd|].
      intros f. unfold g', bump, str1. cbn [wr_reg sub_flags set_r set_f y_r y_f]. destruct f; try reflexivity. rewrite DF0. apply (fr_df _ FR).
    + rewrite MN. discriminate.
Qed.

(** ** The loop *)
Definition phil : list (nat * dexp * dexp) :=
  (if str_di i then [(l_di, vX v_di, vX n_di)] else []) ++ (if str_si i then [(l_si, vX v_si, vX n_si)] else []) ++ [(l_cnt, vX v_cnt, vX n_cnt)].
Definition againe : dexp :=
  let e := eCmp NE (vX n_cnt) (cI 64 0) in
  match rep_mode i with
  | REPZ => eAnd e (eCmp EQ (vX v_a) (vX v_b))
  | REPNZ => eAnd e (eCmp NE (vX v_a) (vX v_b))
  | _ => e
  end.
Definition stop_of : xst -> bool := match rep_mode i with REPZ => zf_clear | REPNZ => zf_set | _ => fun _ => false end.
Lemma cond_b2z : forall s e b, ev c s e = Ok (V (TInt 1) (b2z b)) -> cond_val c s e = Ok b.
Proof. intros s e b E. unfold cond_val. rewrite E. destruct b; reflexivity. Qed.
Lemma ev_var : forall s x v, s_var s x = Some v -> ev c s (vX x) = Ok v.
Proof. intros s x v E. unfold ev, vX. cbn [eval leaf_val]. rewrite E. reflexivity. Qed.
Lemma at_phis : forall g vs s l, at_ g vs s -> at_ g (fold_right (fun xv m => upd_var m (fst xv) (snd xv)) vs l) (set_phis s l).
Proof. intros g vs s l (R & P & V & T). subst vs. split; [|split; [exact P|split; [reflexivity|exact T]]]. unfold set_phis. apply xrel_var. exact R. Qed.
Lemma next_phis : forall g vs s, at_ g vs s -> VB g vs -> exists s2 vs2, do_phis c s true phil = Ok s2 /\ at_ g vs2 s2 /\ VI g vs2.
Proof.
  intros g vs s A (KV & VD & VS & VC & _). pose proof A as (_ & _ & EV & _).
  assert (EC : ev c s (vX n_cnt) = Ok (V (TInt 64) (y_r g 1))) by (apply ev_var; rewrite EV; exact VC).
  unfold do_phis, phil.
  destruct (str_di i) eqn:SD, (str_si i) eqn:SS; cbn [app phi_vals];
    repeat match goal with X : true = true -> _ = Some _ |- _ => specialize (X eq_refl); rewrite <- EV in X; apply ev_var in X; rewrite X end;
    rewrite EC; cbn [bind]; eexists _, _; (split; [reflexivity|]); (split; [apply at_phis; exact A|]);
    (split; [eapply kept_frame; [exact KV|]; intros x X; cbn [fold_right fst snd];
       unfold upd_var; rewrite !(proj2 (Nat.eqb_neq _ _)); [reflexivity|intros <-; unfold v_a, v_b, v_new, v_old, v_adj, l_di, l_si, l_cnt in X; destruct X as [X|[X|[[X ?]|X]]]; try discriminate; lia ..]|]);
    rewrite ?SD, ?SS; (split; [try discriminate; reflexivity|]); (split; [try discriminate; reflexivity|]); reflexivity.
Qed.
Lemma zf_eq : forall a b, inr w a -> inr w b -> zf_of w (a - b - 0) = (a =? b).
Proof.
  intros a b IA IB. unfold zf_of, inr in *. change U with trunc. replace (a - b - 0) with (a - b) by lia. pose proof (okw_pos w w_ok). rewrite trunc_sub_cases by (assumption || lia).
  destruct (Z.ltb_spec a b); lia.
Qed.
Lemma again_val : forall g vs s, at_ g vs s -> VB g vs -> Fr g -> cond_val c s againe = Ok (negb (y_r g 1 =? 0) && negb (stop_of g)).
Proof.
  intros g vs s A (_ & _ & _ & VC & CM & _) FR. pose proof (fr_rr _ FR 1 ltac:(lia)) as R1. apply cond_b2z.
  assert (EC : forall p, vals (set_m g0 (y_m g)) p vs (eCmp NE (vX n_cnt) (cI 64 0)) (V (TInt 1) (b2z (negb (y_r g 1 =? 0))))).
  { intros p'. eapply v_eq; [eapply v_cmp; [vh VC|apply v_cI]|]. reflexivity. }
  unfold againe, stop_of. destruct (rep_mode i) eqn:RM.
  1, 2: rewrite andb_true_r; apply (EC _ _ _ A).
  - assert (IC : is_cmp = true) by (unfold rep_mode, is_cmp in *; destruct (x_mn i); try reflexivity; destruct (x_rep i), (x_repnz i); discriminate).
    destruct (CM IC) as (a & b & VA & VB & IA & IB & FL). unfold zf_clear. rewrite FL. cbn [sub_flags set_f y_f]. rewrite zf_eq by assumption.
    replace (negb match Some (a =? b) with Some false => true | _ => false end) with (a =? b) by (destruct (a =? b); reflexivity).
    eapply v_and1; [apply EC| |exact A]. eapply v_eq; [eapply v_cmp; [vh VA|vh VB]|]. reflexivity.
  - assert (IC : is_cmp = true) by (unfold rep_mode, is_cmp in *; destruct (x_mn i); try reflexivity; destruct (x_rep i), (x_repnz i); discriminate).
    destruct (CM IC) as (a & b & VA & VB & IA & IB & FL). unfold zf_set. rewrite FL. cbn [sub_flags set_f y_f]. rewrite zf_eq by assumption.
    replace (match Some (a =? b) with Some true => true | _ => false end) with (a =? b) by (destruct (a =? b); reflexivity).
    eapply v_and1; [apply EC| |exact A]. eapply v_eq; [eapply v_cmp; [vh VA|vh VB]|]. reflexivity.
Qed.
Lemma loop_ok : is_str = true -> forall n g vs s, Fr g -> VI g vs -> at_ g vs s -> y_r g 1 = Z.of_nat (S n) ->
  exists s' vs', rounds c phil (bodyc body_of) againe (S n) s = Fin (Ok s') /\ at_ (rep_iter (S n) stop_of step g) vs' s' /\ VB (rep_iter (S n) stop_of step g) vs' /\ Fr (rep_iter (S n) stop_of step g).
Proof.
  intros IS. induction n as [|n IH]; intros g vs s FR V A CN; destruct (G_body g vs IS FR V s A) as (s1 & R1 & vs1 & A1 & B1); pose proof (fr_step g IS FR) as FR1;
    pose proof (again_val _ _ _ A1 B1 FR1) as AG; cbn [rep_iter]; set (g1 := bump (step g) 1 (-1)) in *;
    (assert (C1 : y_r g1 1 = U 64 (y_r g 1 - 1)) by (unfold g1; rewrite bump_r; unfold str1; destruct (x_mn i); reflexivity));
    pose proof (fr_rr _ FR 1 ltac:(lia)) as RG; unfold inr in RG; rewrite CN in C1; unfold U in C1; rewrite Z.mod_small in C1 by lia.
  - exists s1, vs1. split; [|destruct (stop_of g1); auto]. cbn [rounds]. unfold round. rewrite R1, AG, C1. reflexivity.
  - destruct (stop_of g1) eqn:ST.
    + exists s1, vs1. split; [|auto]. cbn [rounds]. unfold round. rewrite R1, AG, andb_false_r. reflexivity.
    + destruct (next_phis _ _ _ A1 B1) as (s2 & vs2 & P2 & A2 & V2). destruct (IH g1 vs2 s2 FR1 V2 A2 ltac:(lia)) as (s3 & vs3 & L3 & Q3).
      exists s3, vs3. split; [|exact Q3]. change (rounds c phil (bodyc body_of) againe (S (S n)) s) with
        (match round c phil (bodyc body_of) againe s with More s' => rounds c phil (bodyc body_of) againe (S n) s' | Fin r => Fin r end).
      unfold round. rewrite R1, AG, C1. cbn [negb]. rewrite andb_true_r. replace (negb (Z.of_nat (S (S n)) - 1 =? 0)) with true by lia. rewrite P2. exact L3.
Qed.

(** ** The header *)
Notation wm := (if k =? 4 then 64 else w).
Definition pre_of : list stm :=
  match x_mn i with
  | X_LODS => [SLet v_old (rG RAX (facet_In wm))]
  | X_STOS => [SLet v_old (rG RAX (facet_In w))]
  | X_SCAS => [SLet v_a (rG RAX (facet_In w))]
  | _ => []
  end.
Definition VH (vs : nat -> option rv) : Prop :=
  kept vs /\ (str_di i = true -> vs v_di = Some (V TPtr (y_r g0 7))) /\ (str_si i = true -> vs v_si = Some (V TPtr (y_r g0 6))) /\
  vs v_cnt = Some (V (TInt 64) (y_r g0 1)) /\
  (x_mn i = X_LODS -> vs v_old = Some (V (TInt wm) (U wm (y_r g0 0)))).
Lemma wm_ok : okw wm = true.
Proof. destruct (k =? 4); [reflexivity|apply w_ok]. Qed.
Lemma G_let_any : forall g p0 vs x e l (Q : st -> Prop) (P : rv -> Prop), (forall s, At g p0 vs rt s -> exists v, ev c s e = Ok v /\ P v) ->
  (forall v, P v -> G g p0 (upd_var vs x v) rt l Q) -> G g p0 vs rt (SLet x e :: l) Q.
Proof.
  intros g p0 vs x e l Q P E K s A. destruct (E s A) as (v & E1 & Pv). rewrite (run_let c s x e v l E1).
  destruct A as (R & PC & VS & RT). apply (K v Pv). subst vs. split; [apply xrel_var; assumption|auto].
Qed.
Lemma flag_any : forall g p0 vs f s, At g p0 vs rt s -> exists v, ev c s (GetFlag (cell f)) = Ok v /\ ty_of v = TInt 1 /\
  forall b, y_f g f = Some b -> v = V (TInt 1) (b2z b).
Proof.
  intros g p0 vs f s A. destruct (y_f g f) as [b|] eqn:F.
  - exists (V (TInt 1) (b2z b)). split; [apply (v_flag c g p0 vs f b F s rt A)|]. split; [reflexivity|]. intros b' E. injection E as <-. reflexivity.
  - assert (K : exists v, ev c s (GetFlag (cell f)) = Ok v /\ ty_of v = TInt 1).
    { unfold GetFlag, ev, rG. destruct f; cbn [cell areg_eqb PF CF AF ZF SF OF DF Z.eqb Pos.eqb eval leaf_val].
      1, 3, 4, 5, 6, 7: match goal with |- context [s_reg ?s0 ?r] => destruct (s_reg s0 r) end; eexists; split; reflexivity.
      unfold eNot, eTrunc, eBin, eXor, eBin; cbn [eval leaf_val]; destruct (s_reg s PF) as [z|]; [cbn [get_facet]|]; eexists; split; reflexivity. }
    destruct K as (v & E & T). exists v. repeat (split; [assumption|]). discriminate.
Qed.
Lemma G_save : forall g p0 vs l (Q : st -> Prop), (forall f, y_f g f = y_f g0 f) ->
  (forall vs', (forall x, (x < 5 \/ 10 < x)%nat -> vs' x = vs x) -> saved vs' -> G g p0 vs' rt l Q) -> G g p0 vs rt (rep_save ++ l) Q.
Proof.
  intros g p0 vs l Q EF K. unfold rep_save. cbn [app].
  eapply G_let_any; [intros s A; destruct (flag_any _ _ _ fOF s A) as (v & E & T & B); exists v; split; [exact E|exact (conj T B)]|]. intros v1 [T1 B1].
  eapply G_let_any; [intros s A; destruct (flag_any _ _ _ fSF s A) as (v & E & T & B); exists v; split; [exact E|exact (conj T B)]|]. intros v2 [T2 B2].
  eapply G_let_any; [intros s A; destruct (flag_any _ _ _ fZF s A) as (v & E & T & B); exists v; split; [exact E|exact (conj T B)]|]. intros v3 [T3 B3].
  eapply G_let_any; [intros s A; destruct (flag_any _ _ _ fAF s A) as (v & E & T & B); exists v; split; [exact E|exact (conj T B)]|]. intros v4 [T4 B4].
  eapply G_let_any; [intros s A; destruct (flag_any _ _ _ fPF s A) as (v & E & T & B); exists v; split; [exact E|exact (conj T B)]|]. intros v5 [T5 B5].
  eapply G_let_any; [intros s A; destruct (flag_any _ _ _ fCF s A) as (v & E & T & B); exists v; split; [exact E|exact (conj T B)]|]. intros v6 [T6 B6].
  apply K.
  - intros x X. unfold upd_var. rewrite !(proj2 (Nat.eqb_neq _ _)) by lia. reflexivity.
  - intros f N. destruct f; try congruence; (eexists; split; [reflexivity|split; [assumption|]]); intros b; rewrite <- EF; auto.
Qed.
Ltac ne := unfold upd_var; rewrite !(proj2 (Nat.eqb_neq _ _)) by (unfold v_a, v_b, v_new, v_old, v_adj, v_di, v_si, v_cnt, l_di, l_si, l_cnt in *; lia).
Lemma G_head : forall vs l (Q : st -> Prop), is_str = true -> (forall vs', VH vs' -> G g0 p vs' rt l Q) ->
  G g0 p vs rt (pre_of ++ rep_head i ++ (if is_cmp then rep_save else []) ++ [SLet v_cnt (rG RCX I64)] ++ l) Q.
Proof.
  intros vs l Q IS K. pose proof w_ok as WO. pose proof wm_ok as WMO.
  assert (K1 : forall vs1, kept vs1 -> (x_mn i = X_LODS -> vs1 v_old = Some (V (TInt wm) (U wm (y_r g0 0)))) -> (str_di i = true -> vs1 v_di = Some (V TPtr (y_r g0 7))) ->
    (str_si i = true -> vs1 v_si = Some (V TPtr (y_r g0 6))) -> G g0 p vs1 rt ([SLet v_cnt (rG RCX I64)] ++ l) Q).
  { intros vs1 KV LO D S. cbn [app]. eapply G_let; [apply v_gp64; lia|]. apply K. split; [|split; [|split; [|split]]].
    - eapply kept_frame; [exact KV|]. intros x X. ne. reflexivity.
    - intros X. specialize (D X). ne. exact D.
    - intros X. specialize (S X). ne. exact S.
    - reflexivity.
    - intros X. specialize (LO X). ne. exact LO. }
  assert (K2 : forall vs1, (match x_mn i with
      | X_STOS => vs1 v_old = Some (V (TInt w) (U w (y_r g0 0)))
      | X_SCAS => vs1 v_a = Some (V (TInt w) (U w (y_r g0 0)))
      | X_LODS => vs1 v_old = Some (V (TInt wm) (U wm (y_r g0 0)))
      | _ => True end) -> G g0 p vs1 rt (rep_head i ++ (if is_cmp then rep_save else []) ++ [SLet v_cnt (rG RCX I64)] ++ l) Q).
  { intros vs1 P1. unfold rep_head. cbn [app].
    eapply G_let. { eapply v_sel; [apply (v_flag c g0 p vs1 fDF df DF0)|apply v_cI|apply v_cI]. }
    assert (K3 : forall vs2, vs2 v_adj = Some (V (TInt 64) adj) -> (forall x, (3 < x)%nat -> vs2 x = vs1 x) -> (str_di i = true -> vs2 v_di = Some (V TPtr (y_r g0 7))) ->
       (str_si i = true -> vs2 v_si = Some (V TPtr (y_r g0 6))) -> G g0 p vs2 rt ((if is_cmp then rep_save else []) ++ [SLet v_cnt (rG RCX I64)] ++ l) Q).
    { intros vs2 AD F D S. unfold is_cmp, is_str in *. destruct (x_mn i) eqn:MN; try discriminate IS; cbn [app].
      - apply K1; auto; [|rewrite F by (unfold v_old; lia); auto]. split; [exact AD|rewrite MN; exact I].
      - apply K1; auto; [|discriminate]. split; [exact AD|rewrite MN]. rewrite F by (unfold v_old; lia). exact P1.
      - apply K1; auto; [|discriminate]. split; [exact AD|rewrite MN]. exact I.
      - apply G_save; [reflexivity|]. intros vs3 F3 SV. apply K1; try discriminate.
        + split; [rewrite F3 by (unfold v_adj; lia); exact AD|]. rewrite MN. split; [|exact SV]. rewrite F3, F by (unfold v_a; lia). exact P1.
        + intros X. rewrite F3 by (unfold v_di; lia). auto.
        + intros X. rewrite F3 by (unfold v_si; lia). auto.
      - apply G_save; [reflexivity|]. intros vs3 F3 SV. apply K1; try discriminate.
        + split; [rewrite F3 by (unfold v_adj; lia); exact AD|]. rewrite MN. exact SV.
        + intros X. rewrite F3 by (unfold v_di; lia). auto.
        + intros X. rewrite F3 by (unfold v_si; lia). auto. }
    assert (AJ : (if df then trunc 64 (-1) else trunc 64 1) = adj) by (destruct df; reflexivity). rewrite AJ.
    destruct (str_di i) eqn:SD, (str_si i) eqn:SS; cbn [app].
    - eapply G_let; [apply v_ptr; lia|]. eapply G_let; [apply v_ptr; lia|]. apply K3; try reflexivity. intros x X. ne. reflexivity.
    - eapply G_let; [apply v_ptr; lia|]. apply K3; try reflexivity; try discriminate. intros x X. ne. reflexivity.
    - eapply G_let; [apply v_ptr; lia|]. apply K3; try reflexivity; try discriminate. intros x X. ne. reflexivity.
    - apply K3; try reflexivity; try discriminate. intros x X. ne. reflexivity. }
  unfold pre_of, is_str in *. destruct (x_mn i); try discriminate IS; cbn [app].
  - eapply G_let; [apply v_gp; [lia|exact WMO]|]. apply K2. reflexivity.
  - eapply G_let; [apply v_gp; [lia|exact WO]|]. apply K2. reflexivity.
  - apply K2. exact I.
  - eapply G_let; [apply v_gp; [lia|exact WO]|]. apply K2. reflexivity.
  - apply K2. exact I.
Qed.

(** ** The block after the loop *)
Definition extra_of : list (nat * dexp * dexp) := match x_mn i with X_LODS => [(v_mrg, vX v_old, vX v_new)] | _ => [] end.
Definition post_of : list stm := match x_mn i with X_LODS => StoreGpX RAX wm (vX v_mrg) | _ => [] end.
Definition cphil : list (nat * dexp * dexp) :=
  (if str_di i then [(k_di, vX v_di, vX n_di)] else []) ++ (if str_si i then [(k_si, vX v_si, vX n_si)] else []) ++
  [(k_cnt, vX v_cnt, vX n_cnt)] ++
  (if is_cmp then [(v_lf, cI 1 0, cI 1 1); (k_a, cI w 0, vX v_a); (k_b, cI w 0, vX v_b)] else []) ++ extra_of.
Definition contc : list stm :=
  (if is_cmp then [SLet 11 (eSub (vX k_a) (vX k_b))] ++ FlagCalcSub w (vX 11) (vX k_a) (vX k_b) false false ++ rep_merge_flags else []) ++
  (if str_di i then [SSet RDI (vX k_di)] else []) ++ (if str_si i then [SSet RSI (vX k_si)] else []) ++ [SSet RCX (vX k_cnt)] ++ post_of.
(** [lf]: the loop was entered; [g]: the final state. *)
Definition VK (g : xst) (lf : bool) (vs : nat -> option rv) : Prop :=
  (str_di i = true -> vs k_di = Some (V TPtr (y_r g 7))) /\ (str_si i = true -> vs k_si = Some (V TPtr (y_r g 6))) /\
  vs k_cnt = Some (V (TInt 64) (y_r g 1)) /\
  (is_cmp = true -> saved vs /\ vs v_lf = Some (V (TInt 1) (b2z lf)) /\ exists a b, vs k_a = Some (V (TInt w) a) /\ vs k_b = Some (V (TInt w) b) /\ inr w a /\ inr w b /\
     if lf then forall f, y_f g f = y_f (sub_flags w a b 0 false g0) f else forall f, y_f g f = y_f g0 f) /\
  (x_mn i = X_LODS -> exists v, vs v_mrg = Some (V (TInt wm) v) /\ inr wm v /\ y_r g 0 = reg_merge wm (y_r g0 0) v).
Lemma ev_cI : forall s b z, ev c s (cI b z) = Ok (V (TInt b) (trunc b z)).
Proof. reflexivity. Qed.
Lemma kept_saved : forall vs, is_cmp = true -> kept vs -> saved vs.
Proof. intros vs IC [_ K]. unfold is_cmp in IC. destruct (x_mn i); try discriminate IC; [apply K|exact K]. Qed.
Lemma saved_frame : forall vs vs', saved vs -> (forall x, (5 <= x <= 10)%nat -> vs' x = vs x) -> saved vs'.
Proof. intros vs vs' S E f N. destruct (S f N) as (v & X & Y). exists v. split; [|exact Y]. rewrite E; [exact X|]. destruct f; cbn [slot]; try lia; congruence. Qed.
Ltac evs EV := repeat match goal with X : ?vs ?x = Some _ |- context [ev c _ (vX ?x)] => rewrite <- EV in X; apply ev_var in X; rewrite X end.
Lemma exit_phis : forall g vs s, is_str = true -> at_ g vs s -> VB g vs -> exists s2 vs2, do_phis c s true cphil = Ok s2 /\ at_ g vs2 s2 /\ VK g true vs2.
Proof.
  intros g vs s IS A (KV & VD & VS & VC & CM & LD). pose proof A as (_ & _ & EV & _). unfold do_phis, cphil, extra_of, VK. pose proof (fun X => kept_saved vs X KV) as SV.
  unfold is_str, is_cmp, str_di, str_si in *. destruct (x_mn i) eqn:MN; try discriminate IS; cbn [app phi_vals];
    try (destruct (LD eq_refl) as (v & LV & LI & LE)); try (destruct (CM eq_refl) as (a & b & VA & VB & IA & IB & FL)); try specialize (VD eq_refl); try specialize (VS eq_refl); try specialize (SV eq_refl);
    evs EV; rewrite ?ev_cI; cbn [bind]; eexists _, _; (split; [reflexivity|]); (split; [apply at_phis; exact A|]);
    (split; [first [discriminate|reflexivity]|]); (split; [first [discriminate|reflexivity]|]); (split; [reflexivity|]);
    (split; [first [discriminate|intros _; split; [eapply saved_frame; [exact SV|]; intros x X; cbn [fold_right fst snd]; unfold upd_var; rewrite !(proj2 (Nat.eqb_neq _ _)) by (unfold k_di, k_si, k_cnt, v_lf, k_a, k_b in *; lia); reflexivity|split; [reflexivity|exists a, b; split; [reflexivity|]; split; [reflexivity|]; auto]]]|]);
    first [discriminate|intros _; exists v; split; [reflexivity|]; split; [exact LI|exact LE]].
Qed.
Lemma skip_phis : forall vs s, is_str = true -> at_ g0 vs s -> VH vs -> exists s2 vs2, do_phis c s false cphil = Ok s2 /\ at_ g0 vs2 s2 /\ VK g0 false vs2.
Proof.
  intros vs s IS A (KV & VD & VS & VC & LD). pose proof A as (_ & _ & EV & _). unfold do_phis, cphil, extra_of, VK. pose proof (fun X => kept_saved vs X KV) as SV.
  assert (I0 : inr w (trunc w 0)) by (apply trunc_range; pose proof (okw_pos w w_ok); lia). pose proof wm_ok as WMO. pose proof (okw_pos _ WMO) as WMP. pose proof (RR0 0 ltac:(lia)) as R0.
  unfold is_str, is_cmp, str_di, str_si in *. destruct (x_mn i) eqn:MN; try discriminate IS; cbn [app phi_vals];
    try specialize (LD eq_refl); try specialize (VD eq_refl); try specialize (VS eq_refl); try specialize (SV eq_refl);
    evs EV; rewrite ?ev_cI; cbn [bind]; eexists _, _; (split; [reflexivity|]); (split; [apply at_phis; exact A|]);
    (split; [first [discriminate|reflexivity]|]); (split; [first [discriminate|reflexivity]|]); (split; [reflexivity|]);
    (split; [first [discriminate|intros _; split; [eapply saved_frame; [exact SV|]; intros x X; cbn [fold_right fst snd]; unfold upd_var; rewrite !(proj2 (Nat.eqb_neq _ _)) by (unfold k_di, k_si, k_cnt, v_lf, k_a, k_b in *; lia); reflexivity|split; [reflexivity|eexists _, _; split; [reflexivity|]; split; [reflexivity|]; auto]]]|]);
    first [discriminate|intros _; eexists; split; [reflexivity|]; split; [apply trunc_range; lia|]].
  clear - R0 KS. unfold reg_merge, U, inr in *. destruct KS as [E | [E | [E | E]]]; rewrite E in *; cbn [Z.eqb Pos.eqb Z.mul Pos.mul]; lia.
Qed.

Lemma v_selt : forall g p0 vs k0 a b lf ta tb, vals g p0 vs k0 (V (TInt 1) (b2z lf)) -> vals g p0 vs a ta -> vals g p0 vs b tb -> ty_of ta = ty_of tb ->
  vals g p0 vs (eSel k0 a b) (if lf then ta else tb).
Proof.
  intros g p0 vs k0 a b lf ta tb K A B T s rt0 At_. unfold ev, eSel. cbn [eval]. pose proof (K s rt0 At_) as E1. pose proof (A s rt0 At_) as E2.
  pose proof (B s rt0 At_) as E3. unfold ev in *. rewrite E1, E2, E3. cbn [bind sem3]. unfold sel_sem. rewrite T, ty_eqb_refl. destruct lf; reflexivity.
Qed.
Lemma G_setany : forall g p0 vs f e v l (Q : st -> Prop), vals g p0 vs e v -> G (set1 g f None) p0 vs rt l Q -> G g p0 vs rt (SSet (cell f) e :: l) Q.
Proof.
  intros g p0 vs f e v l Q E K s A. cbn [run run1]. rewrite (E s rt A). cbn [bind]. destruct A as (R & P & VS & RT).
  apply K. split; [|repeat split; assumption]. apply xrel_flag; [assumption|discriminate].
Qed.
(** One merged flag. *)
Lemma G_mrg : forall g p0 vs f lf bn l (Q : st -> Prop), f <> fPF -> f <> fDF -> saved vs -> vs v_lf = Some (V (TInt 1) (b2z lf)) -> y_f g f = Some bn ->
  G (set1 g f (if lf then Some bn else y_f g0 f)) p0 vs rt l Q -> G g p0 vs rt (SSet (cell f) (eSel (vX v_lf) (GetFlag (cell f)) (vX (slot f))) :: l) Q.
Proof.
  intros g p0 vs f lf bn l Q NP ND SV LF FB K. destruct (SV f ND) as (v & V1 & V2 & V3).
  assert (E : vals g p0 vs (eSel (vX v_lf) (GetFlag (cell f)) (vX (slot f))) (if lf then V (TInt 1) (b2z bn) else v)).
  { eapply v_selt; [apply v_var; exact LF|apply v_flag; exact FB|apply v_var; exact V1|rewrite V2; reflexivity]. }
  destruct lf; [eapply G_flag; [exact HA|exact E|exact NP|exact K]|].
  destruct (y_f g0 f) as [b|] eqn:F0; [|eapply G_setany; eassumption].
  rewrite (V3 _ eq_refl) in E. eapply G_flag; [exact HA|exact E|exact NP|exact K].
Qed.
Lemma G_mrgp : forall g p0 vs lf bn l (Q : st -> Prop), saved vs -> vs v_lf = Some (V (TInt 1) (b2z lf)) -> y_f g fPF = Some bn ->
  G (set1 g fPF (if lf then Some bn else y_f g0 fPF)) p0 vs rt l Q -> G g p0 vs rt (SSet PF (eNot 1 (eSel (vX v_lf) (GetFlag PF) (vX 9))) :: l) Q.
Proof.
  intros g p0 vs lf bn l Q SV LF FB K. destruct (SV fPF ltac:(discriminate)) as (v & V1 & V2 & V3).
  assert (E : vals g p0 vs (eSel (vX v_lf) (GetFlag PF) (vX 9)) (if lf then V (TInt 1) (b2z bn) else v)).
  { eapply v_selt; [apply v_var; exact LF|apply (v_flag c g p0 vs fPF _ FB)|apply v_var; exact V1|rewrite V2; reflexivity]. }
  destruct lf.
  { eapply (G_pf c HA); [apply v_not1; exact E| |exact K]. destruct bn; reflexivity. }
  destruct (y_f g0 fPF) as [b|] eqn:F0.
  - rewrite (V3 _ eq_refl) in E. eapply (G_pf c HA); [apply v_not1; exact E| |exact K]. destruct b; reflexivity.
  - change PF with (cell fPF). destruct v as [t z|t].
    + cbn [ty_of] in V2. subst t. eapply G_setany; [|exact K]. intros s rt0 A. unfold eNot, eXor, eBin, ev. cbn [eval]. pose proof (E s rt0 A) as E1. unfold ev in E1. change (cell fPF) with PF. rewrite E1. reflexivity.
    + cbn [ty_of] in V2. subst t. eapply G_setany; [|exact K]. intros s rt0 A. unfold eNot, eXor, eBin, ev. cbn [eval]. pose proof (E s rt0 A) as E1. unfold ev in E1. change (cell fPF) with PF. rewrite E1. reflexivity.
Qed.
Lemma G_cflags : forall g lf vs l (Q : st -> Prop), is_cmp = true -> VK g lf vs -> Fr g ->
  (forall vs', (forall x, x <> 11%nat -> x <> 21%nat -> vs' x = vs x) -> G (set_f (set_m g0 (y_m g)) (y_f g)) p vs' rt l Q) ->
  G (set_m g0 (y_m g)) p vs rt ([SLet 11 (eSub (vX k_a) (vX k_b))] ++ FlagCalcSub w (vX 11) (vX k_a) (vX k_b) false false ++ rep_merge_flags ++ l) Q.
Proof.
  intros g lf vs l Q IC (_ & _ & _ & CM & _) FR K. destruct (CM IC) as (SV & LF & a & b & VA & VB & IA & IB & FL). clear CM.
  pose proof (okw_pos w w_ok) as WP. cbn [app].
  eapply G_let. { eapply v_bin; [vh VA|vh VB|reflexivity]. }
  set (vs1 := upd_var vs 11 _). eapply (G_sub c HA) with (a := a) (b := b); try assumption; try lia; try (apply sv_var; [|discriminate]); try reflexivity; try assumption.
  set (vs2 := upd_var vs1 21 _).
  assert (SV2 : saved vs2). { eapply saved_frame; [exact SV|]. intros x X. unfold vs2, vs1. ne. reflexivity. }
  assert (LF2 : vs2 v_lf = Some (V (TInt 1) (b2z lf))) by exact LF.
  unfold rep_merge_flags. cbn [app].
  eapply (G_mrg _ _ _ fOF lf); [discriminate|discriminate|exact SV2|exact LF2|reflexivity|].
  eapply (G_mrg _ _ _ fSF lf); [discriminate|discriminate|exact SV2|exact LF2|reflexivity|].
  eapply (G_mrg _ _ _ fZF lf); [discriminate|discriminate|exact SV2|exact LF2|reflexivity|].
  eapply (G_mrg _ _ _ fAF lf); [discriminate|discriminate|exact SV2|exact LF2|reflexivity|].
  eapply (G_mrgp _ _ _ lf); [exact SV2|exact LF2|reflexivity|].
  eapply (G_mrg _ _ _ fCF lf); [discriminate|discriminate|exact SV2|exact LF2|reflexivity|].
  eapply G_weaken; [|apply K].
  - repeat split; auto. intros f bb. cbn [set_f y_f]. pose proof (fr_df _ FR) as D. destruct lf; rewrite FL; destruct f; cbn; rewrite ?DF0; auto.
  - intros x X1 X2. unfold vs2, vs1, upd_var. rewrite !(proj2 (Nat.eqb_neq _ _)) by congruence. reflexivity.
Qed.
Lemma reg64 : forall o z, inr 64 z -> reg_merge 64 o z = z.
Proof. intros o z I. unfold reg_merge, U, inr in *. cbn [Z.eqb Pos.eqb]. lia. Qed.
Lemma G_cont : forall g lf vs, is_str = true -> VK g lf vs -> Fr g -> G (set_m g0 (y_m g)) p vs rt contc (done g rt).
Proof.
  intros g lf vs IS VK_ FR. pose proof VK_ as (VD & VS & VC & _ & LD). pose proof wm_ok as WMO.
  assert (K : forall vs', (forall x, x <> 11%nat -> x <> 21%nat -> vs' x = vs x) -> G (set_f (set_m g0 (y_m g)) (y_f g)) p vs' rt
    ((if str_di i then [SSet RDI (vX k_di)] else []) ++ (if str_si i then [SSet RSI (vX k_si)] else []) ++ [SSet RCX (vX k_cnt)] ++ post_of) (done g rt)).
  { intros vs' F. assert (EVD : str_di i = true -> vs' k_di = Some (V TPtr (y_r g 7))) by (intros X; rewrite F by discriminate; auto).
    assert (EVS : str_si i = true -> vs' k_si = Some (V TPtr (y_r g 6))) by (intros X; rewrite F by discriminate; auto).
    assert (EVC : vs' k_cnt = Some (V (TInt 64) (y_r g 1))) by (rewrite F by discriminate; auto).
    assert (ELD : x_mn i = X_LODS -> exists v, vs' v_mrg = Some (V (TInt wm) v) /\ inr wm v /\ y_r g 0 = reg_merge wm (y_r g0 0) v) by (intros X; rewrite F by discriminate; auto).
    clear VD VS VC LD F.
    assert (IPP : pc_value c p 0 = Ok (V (TInt 64) (y_ip g))).
    { rewrite (fr_ip _ FR), IP. unfold pc_value. rewrite Z.add_0_r. reflexivity. }
    pose proof (fr_rr _ FR 7 ltac:(lia)) as R7. pose proof (fr_rr _ FR 6 ltac:(lia)) as R6. pose proof (fr_rr _ FR 1 ltac:(lia)) as R1.
    assert (FIN : forall gg, (forall n, 0 <= n < 16 -> y_r gg n = y_r g n) -> y_f gg = y_f g -> y_fs gg = y_fs g0 -> y_gs gg = y_gs g0 -> y_m gg = y_m g -> gle gg g).
    { intros gg A1 A2 A3 A4 A5. repeat split; intros; rewrite ?A2, ?A3, ?A4, ?A5; auto; symmetry; apply FR. }
    unfold post_of. pose proof (fr_r _ FR) as RG. unfold is_str, str_di, str_si in *. destruct (x_mn i) eqn:MN; try discriminate IS; cbn [app].
    - destruct (ELD eq_refl) as (v & LV & LI & LE). specialize (EVS eq_refl).
      eapply (G_wreg64 c HA); [right; vh EVS|lia|]. eapply (G_wreg64 c HA); [left; vh EVC|lia|].
      rewrite <- (app_nil_r (StoreGpX _ _ _)). eapply (G_StoreGp c HA) with (v := v); [rewrite trunc_small by exact LI; vh LV|exact WMO|lia|].
      apply G_done; [|exact IPP]. apply FIN; try reflexivity. intros n N. cbn [wr_reg set_r set_f set_m y_r]. cbn [Z.eqb Pos.eqb].
      destruct (Z.eqb_spec n 0) as [->|N0]; [symmetry; exact LE|]. destruct (Z.eqb_spec n 1) as [->|N1]; [apply reg64; exact R1|].
      destruct (Z.eqb_spec n 6) as [->|N6]; [apply reg64; exact R6|]. symmetry. apply RG; auto. intros ->; congruence.
    - specialize (EVD eq_refl). eapply (G_wreg64 c HA); [right; vh EVD|lia|]. eapply (G_wreg64 c HA); [left; vh EVC|lia|].
      apply G_done; [|exact IPP]. apply FIN; try reflexivity. intros n N. cbn [wr_reg set_r set_f set_m y_r]. cbn [Z.eqb Pos.eqb].
      destruct (Z.eqb_spec n 1) as [->|N1]; [apply reg64; exact R1|]. destruct (Z.eqb_spec n 7) as [->|N7]; [apply reg64; exact R7|]. symmetry. apply RG; auto; try discriminate. intros ->; congruence.
    - specialize (EVD eq_refl). specialize (EVS eq_refl). eapply (G_wreg64 c HA); [right; vh EVD|lia|]. eapply (G_wreg64 c HA); [right; vh EVS|lia|]. eapply (G_wreg64 c HA); [left; vh EVC|lia|].
      apply G_done; [|exact IPP]. apply FIN; try reflexivity. intros n N. cbn [wr_reg set_r set_f set_m y_r]. cbn [Z.eqb Pos.eqb].
      destruct (Z.eqb_spec n 1) as [->|N1]; [apply reg64; exact R1|]. destruct (Z.eqb_spec n 6) as [->|N6]; [apply reg64; exact R6|]. destruct (Z.eqb_spec n 7) as [->|N7]; [apply reg64; exact R7|]. symmetry. apply RG; auto; try discriminate; intros ->; congruence.
    - specialize (EVD eq_refl). eapply (G_wreg64 c HA); [right; vh EVD|lia|]. eapply (G_wreg64 c HA); [left; vh EVC|lia|].
      apply G_done; [|exact IPP]. apply FIN; try reflexivity. intros n N. cbn [wr_reg set_r set_f set_m y_r]. cbn [Z.eqb Pos.eqb].
      destruct (Z.eqb_spec n 1) as [->|N1]; [apply reg64; exact R1|]. destruct (Z.eqb_spec n 7) as [->|N7]; [apply reg64; exact R7|]. symmetry. apply RG; auto; try discriminate. intros ->; congruence.
    - specialize (EVD eq_refl). specialize (EVS eq_refl). eapply (G_wreg64 c HA); [right; vh EVD|lia|]. eapply (G_wreg64 c HA); [right; vh EVS|lia|]. eapply (G_wreg64 c HA); [left; vh EVC|lia|].
      apply G_done; [|exact IPP]. apply FIN; try reflexivity. intros n N. cbn [wr_reg set_r set_f set_m y_r]. cbn [Z.eqb Pos.eqb].
      destruct (Z.eqb_spec n 1) as [->|N1]; [apply reg64; exact R1|]. destruct (Z.eqb_spec n 6) as [->|N6]; [apply reg64; exact R6|]. destruct (Z.eqb_spec n 7) as [->|N7]; [apply reg64; exact R7|]. symmetry. apply RG; auto; try discriminate; intros ->; congruence. }
  unfold contc. destruct is_cmp eqn:IC.
  - rewrite <- !app_assoc. eapply G_cflags; eassumption.
  - cbn [app]. eapply G_weaken; [|apply K; reflexivity]. repeat split; auto. intros f b. cbn [set_f y_f]. rewrite (fr_f _ FR IC). auto.
Qed.

(** ** REP, REPE and REPNE *)
Definition loop_code : xcode :=
  CLoop (SPcConst (x_end i) :: pre_of ++ rep_head i ++ (if is_cmp then rep_save else []) ++ [SLet v_cnt (rG RCX I64)])
    (eCmp NE (vX v_cnt) (cI 64 0)) phil (bodyc body_of) againe cphil contc.
Lemma entry_phis : forall vs s, at_ g0 vs s -> VH vs -> exists s2 vs2, do_phis c s false phil = Ok s2 /\ at_ g0 vs2 s2 /\ VI g0 vs2.
Proof.
  intros vs s A (KV & VD & VS & VC & _). pose proof A as (_ & _ & EV & _).
  assert (EC : ev c s (vX v_cnt) = Ok (V (TInt 64) (y_r g0 1))) by (apply ev_var; rewrite EV; exact VC).
  unfold do_phis, phil.
  destruct (str_di i) eqn:SD, (str_si i) eqn:SS; cbn [app phi_vals];
    repeat match goal with X : true = true -> _ = Some _ |- _ => specialize (X eq_refl); rewrite <- EV in X; apply ev_var in X; rewrite X end;
    rewrite EC; cbn [bind]; eexists _, _; (split; [reflexivity|]); (split; [apply at_phis; exact A|]);
    (split; [eapply kept_frame; [exact KV|]; intros x X; cbn [fold_right fst snd];
       unfold upd_var; rewrite !(proj2 (Nat.eqb_neq _ _)); [reflexivity|intros <-; unfold v_a, v_b, v_new, v_old, v_adj, l_di, l_si, l_cnt in X; destruct X as [X|[X|[[X ?]|X]]]; try discriminate; lia ..]|]);
    rewrite ?SD, ?SS; (split; [try discriminate; reflexivity|]); (split; [try discriminate; reflexivity|]); reflexivity.
Qed.
Lemma rep_ok : forall s, is_str = true -> xrel s g0 -> s_ret s = rt -> exists s',
  xrunf c s loop_code = Ok s' /\ done (rep_iter (Z.to_nat (y_r g0 1)) stop_of step g0) rt s'.
Proof.
  intros s IS R RT. pose proof (RR0 1 ltac:(lia)) as R1. unfold inr in R1.
  assert (HD : exists s1 vs1, run c s (SPcConst (x_end i) :: pre_of ++ rep_head i ++ (if is_cmp then rep_save else []) ++ [SLet v_cnt (rG RCX I64)]) = Ok s1 /\ At g0 p vs1 rt s1 /\ VH vs1).
  { destruct (G_head (s_var s) [] (fun s1 => exists vs1, At g0 p vs1 rt s1 /\ VH vs1) IS) with (s := with_pc s (PcConst (x_end i))) as (s1 & E1 & vs1 & A1 & V1).
    - intros vs' V'. apply G_nil. intros s0 A0. exists vs'. auto.
    - split; [|repeat split; auto]. destruct R. split; assumption.
    - exists s1, vs1. rewrite app_nil_r in E1. auto. }
  destruct HD as (s1 & vs1 & E1 & A1 & V1). 
  assert (A1' : at_ g0 vs1 s1). { destruct A1 as (X & Y). split; [|exact Y]. eapply xrel_gle; [exact X|]. repeat split; auto. }
  assert (GV : cond_val c s1 (eCmp NE (vX v_cnt) (cI 64 0)) = Ok (negb (y_r g0 1 =? 0))).
  { apply cond_b2z. pose proof V1 as (_ & _ & _ & VC & _). eapply v_eq; [eapply v_cmp; [vh VC|apply v_cI]|reflexivity|exact A1]. }
  destruct (Z.eqb_spec (y_r g0 1) 0) as [Z0|NZ].
  - rewrite Z0. change (rep_iter (Z.to_nat 0) stop_of step g0) with g0.
    destruct (skip_phis vs1 s1 IS A1' V1) as (s2 & vs2 & E2 & A2 & V2).
    destruct (G_cont g0 false vs2 IS V2 fr_init s2 A2) as (s3 & E3 & D3). exists s3. split; [|exact D3]. unfold xrunf, loop_code, xrunq. rewrite E1. cbn [bind]. rewrite GV. cbn [bind negb]. rewrite E2. exact E3.
  - destruct (entry_phis vs1 s1 A1' V1) as (s2 & vs2 & E2 & A2 & V2).
    destruct (Z.to_nat (y_r g0 1)) as [|n] eqn:EN; [lia|].
    destruct (loop_ok IS n g0 vs2 s2 fr_init V2 A2 ltac:(lia)) as (s3 & vs3 & L3 & A3 & V3 & F3).
    destruct (exit_phis _ vs3 s3 IS A3 V3) as (s4 & vs4 & E4 & A4 & V4).
    destruct (G_cont _ true vs4 IS V4 F3 s4 A4) as (s5 & E5 & D5). exists s5. split; [|exact D5]. unfold xrunf, loop_code, xrunq. rewrite E1. cbn [bind]. rewrite GV. cbn [bind negb]. rewrite E2. cbn [bind].
    rewrite (loopq_in c phil (bodyc body_of) againe max_rounds (S n) s2 (Ok s3) L3) by (rewrite max_rounds_val; lia). cbn [bind]. rewrite E4. exact E5.
Qed.
(** ** Without prefix *)
Lemma G_sub' : forall g p0 vs res lhs rhs a b (Q : st -> Prop), sv c vs res (V (TInt w) (trunc w (a - b))) -> sv c vs lhs (V (TInt w) a) -> sv c vs rhs (V (TInt w) b) ->
  inr w a -> inr w b -> (forall vs', G (sub_flags w a b 0 false g) p0 vs' rt [] Q) -> G g p0 vs rt (FlagCalcSub w res lhs rhs false false) Q.
Proof.
  intros g p0 vs res lhs rhs a b Q A B C IA IB K. rewrite <- (app_nil_r (FlagCalcSub _ _ _ _ _ _)). pose proof (okw_pos w w_ok). eapply (G_sub c HA); try eassumption; try lia. apply K.
Qed.
Definition plain_code : list stm :=
  match x_mn i with
  | X_LODS => rep_head i ++ [SLoad v_new (TInt w) (vX v_si)] ++ rep_end_plain i false ++ StoreGpX RAX w (vX v_new)
  | X_STOS => [SLet v_old (rG RAX (facet_In w))] ++ rep_head i ++ [SStore (vX v_old) (vX v_di)] ++ rep_end_plain i false
  | X_MOVS => rep_head i ++ [SLoad v_new (TInt w) (vX v_si); SStore (vX v_new) (vX v_di)] ++ rep_end_plain i false
  | X_SCAS => [SLet v_a (rG RAX (facet_In w))] ++ rep_head i ++ [SLoad v_b (TInt w) (vX v_di)] ++ rep_end_plain i true
  | _ => rep_head i ++ [SLoad v_a (TInt w) (vX v_si); SLoad v_b (TInt w) (vX v_di)] ++ rep_end_plain i true
  end.
Lemma G_plain : forall vs, is_str = true -> G g0 p vs rt plain_code (done (step g0) rt).
Proof.
  intros vs IS. pose proof w_ok as WO. pose proof w_bytes as WB. pose proof (okw_pos w WO) as WP.
  assert (IPP : pc_value c p 0 = Ok (V (TInt 64) (y_ip g0))) by (rewrite IP; unfold pc_value; rewrite Z.add_0_r; reflexivity).
  assert (AJ : (if df then trunc 64 (-1) else trunc 64 1) = adj) by (destruct df; reflexivity).
  assert (SL : forall z, vals g0 p z (eSel (GetFlag DF) (cI 64 (-1)) (cI 64 1)) (V (TInt 64) adj)).
  { intros z. rewrite <- AJ. eapply v_sel; [apply (v_flag c g0 p z fDF df DF0)|apply v_cI|apply v_cI]. }
  unfold plain_code, rep_head, rep_end_plain, is_str, str_di, str_si, str1 in *. destruct (x_mn i) eqn:MN; try discriminate IS; cbn [app].
  - eapply G_let; [apply SL|]. eapply G_let; [apply v_ptr; lia|]. eapply G_load; [var|]. rewrite WB.
    eapply (G_wreg64 c HA); [right; eapply v_gep; var|lia|]. rewrite <- (app_nil_r (StoreGpX _ _ _)).
    eapply (G_StoreGp c HA) with (v := rd_mem (y_m g0) (y_r g0 6) (Z.to_nat k)); [rewrite (trunc_small w (rd_mem _ _ _)) by apply inr_rd; var|exact WO|lia|].
    apply G_done; [|exact IPP]. unfold bump. repeat split; auto. intros n N. cbn [wr_reg set_r y_r]. rewrite gep_adj. cbn [Z.eqb Pos.eqb].
    destruct (Z.eqb_spec n 0) as [->|N0]; [reflexivity|]. destruct (Z.eqb_spec n 6) as [->|N6]; [|reflexivity]. unfold reg_merge, U. cbn [Z.eqb Pos.eqb]. rewrite Z.mod_mod by lia. reflexivity.
  - eapply G_let; [apply v_gp; [lia|exact WO]|]. eapply G_let; [apply SL|]. eapply G_let; [apply v_ptr; lia|].
    eapply G_store with (v := y_r g0 0); [var|var|exact WO|reflexivity|]. rewrite WB.
    eapply (G_wreg64 c HA); [right; eapply v_gep; var|lia|]. apply G_done; [|exact IPP]. unfold bump. repeat split; auto. intros n N. cbn [wr_reg set_r y_r set_m]. rewrite gep_adj.
    destruct (Z.eqb_spec n 7) as [->|N6]; [|reflexivity]. unfold reg_merge, U. cbn [Z.eqb Pos.eqb]. rewrite Z.mod_mod by lia. reflexivity.
  - eapply G_let; [apply SL|]. eapply G_let; [apply v_ptr; lia|]. eapply G_let; [apply v_ptr; lia|]. eapply G_load; [var|]. rewrite WB.
    eapply G_store with (v := rd_mem (y_m g0) (y_r g0 6) (Z.to_nat k)); [var|var|exact WO|symmetry; apply trunc_small; apply inr_rd|]. rewrite WB.
    eapply (G_wreg64 c HA); [right; eapply v_gep; var|lia|]. eapply (G_wreg64 c HA); [right; eapply v_gep; var|lia|].
    apply G_done; [|exact IPP]. unfold bump. repeat split; auto. intros n N. cbn [wr_reg set_r y_r set_m]. rewrite !gep_adj. cbn [Z.eqb Pos.eqb].
    destruct (Z.eqb_spec n 6) as [->|N6]; [|destruct (Z.eqb_spec n 7) as [->|N7]; [|reflexivity]]; cbn [Z.eqb Pos.eqb]; unfold reg_merge, U; cbn [Z.eqb Pos.eqb]; rewrite Z.mod_mod by lia; reflexivity.
  - eapply G_let; [apply v_gp; [lia|exact WO]|]. eapply G_let; [apply SL|]. eapply G_let; [apply v_ptr; lia|]. eapply G_load; [var|]. rewrite WB.
    eapply (G_wreg64 c HA); [right; eapply v_gep; var|lia|].
    eapply G_let; [eapply v_bin; [var|var|reflexivity]|].
    eapply (G_sub' _ _ _ _ _ _ (U w (y_r g0 0)) (rd_mem (y_m g0) (y_r g0 7) (Z.to_nat k))); try (apply sv_var; [reflexivity|discriminate]); [apply trunc_range; lia|apply inr_rd|].
    intros vs'. apply G_done; [|exact IPP]. unfold bump. split; [|split; [auto|repeat split; auto]]. intros n N. cbn [wr_reg set_r y_r sub_flags set_f]. rewrite gep_adj.
    destruct (Z.eqb_spec n 7) as [->|N6]; [|reflexivity]. unfold reg_merge, U. cbn [Z.eqb Pos.eqb]. rewrite Z.mod_mod by lia. reflexivity.
  - eapply G_let; [apply SL|]. eapply G_let; [apply v_ptr; lia|]. eapply G_let; [apply v_ptr; lia|]. eapply G_load; [var|]. rewrite WB. eapply G_load; [var|]. rewrite WB.
    eapply (G_wreg64 c HA); [right; eapply v_gep; var|lia|]. eapply (G_wreg64 c HA); [right; eapply v_gep; var|lia|].
    eapply G_let; [eapply v_bin; [var|var|reflexivity]|].
    eapply (G_sub' _ _ _ _ _ _ (rd_mem (y_m g0) (y_r g0 6) (Z.to_nat k)) (rd_mem (y_m g0) (y_r g0 7) (Z.to_nat k))); try (apply sv_var; [reflexivity|discriminate]); try apply inr_rd.
    intros vs'. apply G_done; [|exact IPP]. unfold bump. split; [|split; [auto|repeat split; auto]]. intros n N. cbn [wr_reg set_r y_r sub_flags set_f]. rewrite !gep_adj.
    destruct (Z.eqb_spec n 6) as [->|N6]; [|destruct (Z.eqb_spec n 7) as [->|N7]; [|reflexivity]]; cbn [Z.eqb Pos.eqb]; unfold reg_merge, U; cbn [Z.eqb Pos.eqb]; rewrite Z.mod_mod by lia; reflexivity.
Qed.
(** ** REP STOSB *)
Definition stosb_code : xcode :=
  CIf (SPcConst (x_end i) :: [SLet 2 (rG RDI PTR); SLet 3 (rG RCX I64); SLet 4 (rG RAX I8); SLet 5 (GetFlag DF)]) (vX 5)
        [SLet 6 (eSub (cI 64 1) (vX 3)); SLet 7 (eGep 1 (vX 2) (vX 6)); SMemset (vX 7) (vX 4) (vX 3);
         SLet 8 (eGep 1 (vX 7) (cI 64 (-1)))]
        [SMemset (vX 2) (vX 4) (vX 3); SLet 8 (eGep 1 (vX 2) (vX 3))]
        [(9%nat, vX 8, vX 8)]
        [SSet RDI (vX 9); SSet RCX (cI 64 0)].
Lemma G_memset : forall g p0 vs ea eb en a b n l (Q : st -> Prop), vals g p0 vs ea (V TPtr a) -> vals g p0 vs eb (V (TInt 8) b) -> vals g p0 vs en (V (TInt 64) n) ->
  G (set_m g (fun x => if (trunc 64 (x - a) <? n) && (0 <=? x) && (x <? 2^64) then b else y_m g x)) p0 vs rt l Q -> G g p0 vs rt (SMemset ea eb en :: l) Q.
Proof.
  intros g p0 vs ea eb en a b n l Q A B N K s At_. cbn [run run1]. rewrite (A s rt At_), (B s rt At_), (N s rt At_). cbn [bind ty_of ty_eqb andb Z.eqb Pos.eqb].
  destruct At_ as (R & P & VS & RT). apply K. split; [|repeat split; assumption]. apply xrel_mem; [exact R|]. intros x. rewrite (xr_m _ _ R). reflexivity.
Qed.
Lemma stosb_ok : forall s, x_mn i = X_STOS -> k = 1 -> xrel s g0 -> s_ret s = rt -> exists s',
  xrunf c s stosb_code = Ok s' /\ done (rep_iter (Z.to_nat (y_r g0 1)) (fun _ => false) step g0) rt s'.
Proof.
  intros s MN K1 R RT. rewrite MN, K1. pose proof (RR0 1 ltac:(lia)) as R1. pose proof (RR0 7 ltac:(lia)) as R7. unfold inr in R1, R7.
  pose proof (stosb_iter df (Z.to_nat (y_r g0 1)) g0 ltac:(lia) RR0) as SI. rewrite Z2Nat.id in SI by lia. cbv zeta in SI. change (- (1)) with (-1).
  set (gE := rep_iter (Z.to_nat (y_r g0 1)) (fun _ => false) (str1 X_STOS 1 (if df then -1 else 1)) g0) in *. destruct SI as (SR & SF_ & SFS & SGS & SIP & SM).
  assert (IPP : pc_value c p 0 = Ok (V (TInt 64) (y_ip gE))) by (rewrite SIP, IP; unfold pc_value; rewrite Z.add_0_r; reflexivity).
  assert (HD : exists s1 vs1, run c s (SPcConst (x_end i) :: [SLet 2 (rG RDI PTR); SLet 3 (rG RCX I64); SLet 4 (rG RAX I8); SLet 5 (GetFlag DF)]) = Ok s1 /\ At g0 p vs1 rt s1 /\
     vs1 2%nat = Some (V TPtr (y_r g0 7)) /\ vs1 3%nat = Some (V (TInt 64) (y_r g0 1)) /\ vs1 4%nat = Some (V (TInt 8) (trunc 8 (y_r g0 0))) /\ vs1 5%nat = Some (V (TInt 1) (b2z df))).
  { assert (HG : G g0 p (s_var s) rt [SLet 2 (rG RDI PTR); SLet 3 (rG RCX I64); SLet 4 (rG RAX I8); SLet 5 (GetFlag DF)] (fun s1 => exists vs1, At g0 p vs1 rt s1 /\
     vs1 2%nat = Some (V TPtr (y_r g0 7)) /\ vs1 3%nat = Some (V (TInt 64) (y_r g0 1)) /\ vs1 4%nat = Some (V (TInt 8) (trunc 8 (y_r g0 0))) /\ vs1 5%nat = Some (V (TInt 1) (b2z df)))).
    { eapply G_let; [apply v_ptr; lia|]. eapply G_let; [apply v_gp64; lia|]. eapply G_let; [apply (v_gp c g0 p _ 0 8); [lia|reflexivity]|]. eapply G_let; [apply (v_flag c g0 p _ fDF df DF0)|].
      apply G_nil. intros s0 A0. eexists. split; [exact A0|]. repeat split; reflexivity. }
    destruct (HG (with_pc s (PcConst (x_end i)))) as (s1 & E1 & vs1 & A1 & V1).
    - split; [|repeat split; auto]. destruct R. split; assumption.
    - exists s1, vs1. auto. }
  destruct HD as (s1 & vs1 & E1 & A1 & V2 & V3 & V4 & V5).
  assert (CV : cond_val c s1 (vX 5) = Ok df) by (apply cond_b2z; apply ev_var; destruct A1 as (_ & _ & -> & _); exact V5).
  assert (ARM : exists s2 vs2, run c s1 (if df then [SLet 6 (eSub (cI 64 1) (vX 3)); SLet 7 (eGep 1 (vX 2) (vX 6)); SMemset (vX 7) (vX 4) (vX 3);
         SLet 8 (eGep 1 (vX 7) (cI 64 (-1)))] else [SMemset (vX 2) (vX 4) (vX 3); SLet 8 (eGep 1 (vX 2) (vX 3))]) = Ok s2 /\
     At (set_m g0 (y_m gE)) p vs2 rt s2 /\ vs2 8%nat = Some (V TPtr (y_r gE 7))).
  { assert (HG : G g0 p vs1 rt (if df then [SLet 6 (eSub (cI 64 1) (vX 3)); SLet 7 (eGep 1 (vX 2) (vX 6)); SMemset (vX 7) (vX 4) (vX 3);
         SLet 8 (eGep 1 (vX 7) (cI 64 (-1)))] else [SMemset (vX 2) (vX 4) (vX 3); SLet 8 (eGep 1 (vX 2) (vX 3))])
         (fun s2 => exists vs2, At (set_m g0 (y_m gE)) p vs2 rt s2 /\ vs2 8%nat = Some (V TPtr (y_r gE 7)))).
    { rewrite (SR 7) by lia. cbn [Z.eqb Pos.eqb]. clearbody gE. destruct df.
      - eapply G_let; [eapply v_bin; [apply v_cI|vh V3|reflexivity]|]. eapply G_let; [eapply v_gep; [vh V2|var]|].
        eapply G_memset; [var|apply v_var; exact V4|apply v_var; exact V3|]. eapply G_let; [eapply v_gep; [var|apply v_cI]|].
        eapply G_weaken with (g' := set_m g0 (y_m gE)).
        + repeat split; auto. intros x. cbn [set_m y_m]. rewrite SM. unfold fillb. destruct ((0 <=? x) && (x <? 2^64)) eqn:XR; rewrite <- !andb_assoc, XR; [|rewrite !andb_false_r; reflexivity]. rewrite !andb_true_r.
          match goal with |- (if ?b1 then _ else _) = (if ?b2 then _ else _) => replace b1 with b2; [reflexivity|] end. change (trunc 64 1) with 1. unfold trunc. assert (X : 0 <= x < 2^64) by lia. clear - X R1 R7. lia.
        + apply G_nil. intros s0 A0. eexists. split; [exact A0|]. unfold upd_var. cbn [Nat.eqb]. do 2 f_equal. change (trunc 64 1) with 1. unfold trunc, U. clear - R1 R7. lia.
      - eapply G_memset; [vh V2|vh V4|vh V3|]. eapply G_let; [eapply v_gep; [vh V2|vh V3]|].
        eapply G_weaken with (g' := set_m g0 (y_m gE)).
        + repeat split; auto. intros x. cbn [set_m y_m]. rewrite SM. unfold fillb. rewrite Z.mul_1_r. reflexivity.
        + apply G_nil. intros s0 A0. eexists. split; [exact A0|]. unfold upd_var. cbn [Nat.eqb]. do 2 f_equal. }
    destruct (HG s1 A1) as (s2 & E2 & vs2 & A2 & V8). exists s2, vs2. auto. }
  destruct ARM as (s2 & vs2 & E2 & A2 & V8).
  assert (PH : do_phis c s2 (negb df) [(9%nat, vX 8, vX 8)] = Ok (set_phis s2 [(9%nat, V TPtr (y_r gE 7))])).
  { unfold do_phis. cbn [phi_vals]. assert (EV : ev c s2 (vX 8) = Ok (V TPtr (y_r gE 7))) by (apply ev_var; destruct A2 as (_ & _ & -> & _); exact V8).
    destruct df; cbn [negb]; rewrite EV; reflexivity. }
  assert (A3 := at_phis _ vs2 s2 [(9%nat, V TPtr (y_r gE 7))] A2).
  assert (HG : G (set_m g0 (y_m gE)) p (fold_right (fun xv m => upd_var m (fst xv) (snd xv)) vs2 [(9%nat, V TPtr (y_r gE 7))]) rt [SSet RDI (vX 9); SSet RCX (cI 64 0)] (done gE rt)).
  { eapply (G_wreg64 c HA); [right; var|lia|]. eapply (G_wreg64 c HA); [left; apply v_cI|lia|]. apply G_done; [|exact IPP]. 
    split; [|split; [intros f b; rewrite SF_; auto|repeat split; auto]]. intros n N. cbn [wr_reg set_r set_m y_r]. rewrite (SR n) by exact N. rewrite (SR 7) by lia. cbn [Z.eqb Pos.eqb].
    destruct (Z.eqb_spec n 1) as [->|N1]; [cbn [Z.eqb Pos.eqb]; rewrite Z.sub_diag; reflexivity|]. destruct (Z.eqb_spec n 7) as [->|N7]; [|reflexivity]. unfold reg_merge, U. cbn [Z.eqb Pos.eqb]. rewrite Z.mod_mod by lia. reflexivity. }
  destruct (HG _ A3) as (s4 & E4 & D4). exists s4. split; [|exact D4]. unfold xrunf, stosb_code, xrunq. rewrite E1. cbn [bind]. rewrite CV. cbn [bind]. rewrite E2. cbn [bind]. rewrite PH. exact E4.
Qed.
End Str.

(** ** The whole instruction *)
Theorem str_wholef : forall `{FpuOps} c cfg kc kcp kd i s g g', c_arch c = X86_64 -> xrel s g -> y_ip g = addr_pc_base c (x_start i) -> str_spec i g = Some g' ->
  exists k s', lift_x86 c cfg kc kcp None kd i = (true, k) /\ xrunf c s k = Ok s' /\ done c g' (s_ret s) s'.
Proof.
  intros F c cfg kc kcp kd i s g g' HA R IP E. unfold str_spec in E. set (g0 := set_ip g (y_ip g + x_len i)) in *.
  assert (IP' : y_ip g0 = addr_pc_base c (x_end i)).
  { unfold g0, x_end. cbn [set_ip y_ip]. rewrite IP, addr_pc_base_trunc, addr_pc_base_add. reflexivity. }
  assert (R0 : xrel s g0) by (destruct R; split; assumption). clearbody g0. clear IP R g.
  unfold str_isa in E. set (kk := x_opsz i) in *.
  destruct (_ || _) eqn:CK in E; [discriminate|]. destruct (y_f g0 fDF) as [df|] eqn:DF0; [|discriminate]. cbn [obind] in E.
  assert (KS : x_opsz i = 1 \/ x_opsz i = 2 \/ x_opsz i = 4 \/ x_opsz i = 8) by (fold kk; lia).
  assert (RX : x_rep i && x_repnz i = false) by (destruct (x_rep i && x_repnz i); [rewrite orb_true_r in CK; discriminate|reflexivity]).
  assert (RR : forall n, 0 <= n < 16 -> inr 64 (y_r g0 n)) by (apply R0).
  assert (IS : is_str i = true) by (unfold is_str; destruct (x_mn i); try discriminate E; reflexivity).
  assert (RT : s_ret s = s_ret s) by reflexivity.
  assert (PL : forall l, lift_x86 c cfg kc kcp None kd i = (true, CPlain (SPcConst (x_end i) :: plain_code i)) -> l = true ->
     exists k s', lift_x86 c cfg kc kcp None kd i = (true, k) /\ xrunf c s k = Ok s' /\ done c (str1 (x_mn i) kk (if df then - kk else kk) g0) (s_ret s) s').
  { intros _ L _. destruct (G_plain c HA i g0 (s_ret s) df IP' DF0 KS RR (s_var s) IS (with_pc s (PcConst (x_end i)))) as (s' & E1 & D1).
    - split; [|repeat split; auto]. destruct R0. split; assumption.
    - exists (CPlain (SPcConst (x_end i) :: plain_code i)), s'. split; [exact L|]. split; [|exact D1]. exact E1. }
  assert (LO : lift_x86 c cfg kc kcp None kd i = (true, loop_code i) ->
     exists k s', lift_x86 c cfg kc kcp None kd i = (true, k) /\ xrunf c s k = Ok s' /\ done c (rep_iter (Z.to_nat (y_r g0 1)) (stop_of i) (str1 (x_mn i) kk (if df then - kk else kk)) g0) (s_ret s) s').
  { intros L. destruct (rep_ok c HA i g0 (s_ret s) df IP' DF0 KS RR s IS R0 RT) as (s' & X & D). exists (loop_code i), s'. auto. }
  unfold lift_x86, lift_gp, lift_str, LiftLods, LiftStos, LiftMovs, LiftScas, LiftCmps, str_code, si_of, di_of in *.
  assert (RM : rep_mode i = if x_rep i then (if is_cmp i then REPZ else REP) else if x_repnz i && is_cmp i then REPNZ else NO_REP) by reflexivity.
  unfold loop_code, rep_loop, plain_code, phil, bodyc, body_of, againe, cphil, contc, pre_of, post_of, extra_of, stop_of, is_cmp in *.
  destruct (x_mn i) eqn:MN; try discriminate E; destruct (x_rep i) eqn:RP, (x_repnz i) eqn:RN; try discriminate RX; try discriminate E; cbn [andb] in *; rewrite RM in *; injection E as <-.
  all: try (apply LO; reflexivity); try (eapply PL; reflexivity).
  destruct (x_opsz i =? 1) eqn:K1; [|apply LO; reflexivity].
  destruct (stosb_ok c HA i g0 (s_ret s) df IP' DF0 RR s MN ltac:(lia) R0 RT) as (s' & X & D). exists (stosb_code i), s'. split; [reflexivity|]. split; [exact X|]. rewrite MN in D. exact D.
Qed.

Theorem str_whole : forall `{FpuOps} c cfg kc kcp kd i s g g', c_arch c = X86_64 -> xrel s g -> y_ip g = addr_pc_base c (x_start i) -> str_spec i g = Some g' ->
  exists k s', lift_x86 c cfg kc kcp None kd i = (true, k) /\ xrun c s k (Ok s') /\ done c g' (s_ret s) s'.
Proof.
  intros F c cfg kc kcp kd i s g g' HA R IP E. destruct (str_wholef c cfg kc kcp kd i s g g' HA R IP E) as (k & s' & L & X & D).
  exists k, s'. split; [exact L|]. split; [apply xrunf_xrun; exact X|exact D].
Qed.
