(** Results of IR operations fit their types. Nothing here models code of /repo. *)

From Coq Require Import ZArith Lia ZifyBool List Bool.
From Verif Require Import Bits IR IrMono.
Import ListNotations.
Open Scope Z_scope.

(** Types that llvm::IntegerType::get and llvm::FixedVectorType::get accept. *)
Fixpoint twf (t : ty) : bool :=
  match t with TInt w => 0 <? w | TPtr | TF32 | TF64 => true | TVec n e => (0 <? n) && twf e end.
Lemma twf_size : forall t, twf t = true -> 0 < tsize t.
Proof.
  induction t as [w| | | |n t IH]; cbn [twf tsize]; intro E; try lia. apply andb_prop in E. destruct E as [E1 E2]. specialize (IH E2). apply Z.ltb_lt in E1. nia.
Qed.

(** ** Element-wise operations *)
Definition iwf (w : Z) (x : ires) : Prop := match x with IV z => inr w z | _ => True end.
Lemma of_ires_wf : forall t x y, iwf (tsize t) x -> of_ires t x = Ok y -> wf_rv y.
Proof. intros t [z| |] y X E; try discriminate; injection E as <-; [exact X|exact I]. Qed.
Lemma seq_wf : forall w l zs, Forall (iwf w) l -> seq_ires l = Ok (Some zs) -> Forall (inr w) zs /\ length zs = length l.
Proof.
  induction l as [|x l IH]; intros zs F E; cbn [seq_ires] in E; [injection E as <-; split; [constructor|reflexivity]|].
  inversion F as [|? ? X F']; subst. destruct x as [z| |]; destruct (seq_ires l) as [[zs'|]| |] eqn:S; try discriminate. injection E as <-.
  destruct (IH zs' F' eq_refl) as [I1 I2]. split; [constructor; assumption|cbn [length]; congruence].
Qed.
Lemma of_lanes_wf : forall t w n l y, 0 <= w -> tsize t = n * w -> Z.of_nat (length l) = n -> Forall (iwf w) l -> of_lanes t w (seq_ires l) = Ok y -> wf_rv y.
Proof.
  intros t w n l y W T N F E. destruct (seq_ires l) as [[zs|]| |] eqn:S; cbn [of_lanes] in E; try discriminate; injection E as <-; [|exact I].
  destruct (seq_wf w l zs F S) as [I1 I2]. cbn [wf_rv]. rewrite T, <- N, <- I2, Z.mul_comm. apply unlanes_inr; assumption.
Qed.
Lemma lanes_len : forall n w z, 0 <= n -> Z.of_nat (length (lanes n w z)) = n.
Proof. intros. rewrite lanes_length. lia. Qed.
Lemma vec1_wf : forall n w w' t f a y, 0 <= n -> 0 <= w -> 0 <= w' -> tsize t = n * w' -> (forall x, inr w x -> iwf w' (f x)) -> vec1 n w w' t f a = Ok y -> wf_rv y.
Proof.
  intros n w w' t f a y N W W' T F E. eapply of_lanes_wf; [exact W'|exact T| |  |exact E].
  - rewrite map_length. apply lanes_len. assumption.
  - apply Forall_map. eapply Forall_impl; [exact F|]. apply lanes_Forall. assumption.
Qed.
Lemma forall_combine : forall (T U : Type) (P : T -> Prop) (Q : U -> Prop) l m, Forall P l -> Forall Q m -> Forall (fun p => P (fst p) /\ Q (snd p)) (combine l m).
Proof.
  induction l as [|x l IH]; intros m F G; [constructor|]. destruct m as [|y m]; [constructor|]. cbn [combine]. inversion F; inversion G; subst. constructor; [auto|apply IH; assumption].
Qed.
Lemma vec2_wf : forall n w w' t f a b y, 0 <= n -> 0 <= w -> 0 <= w' -> tsize t = n * w' -> (forall x y, inr w x -> inr w y -> iwf w' (f x y)) -> vec2 n w w' t f a b = Ok y -> wf_rv y.
Proof.
  intros n w w' t f a b y N W W' T F E. eapply of_lanes_wf; [exact W'|exact T| |  |exact E]; unfold map2.
  - rewrite map_length, combine_length, !lanes_length. lia.
  - apply Forall_map. eapply Forall_impl; [|apply forall_combine; apply lanes_Forall; exact W]. intros [x1 x2] [X1 X2]. apply F; assumption.
Qed.
Lemma vec3_wf : forall n w w' t f a b c y, 0 <= n -> 0 <= w -> 0 <= w' -> tsize t = n * w' -> (forall x y z, inr w x -> inr w y -> inr w z -> iwf w' (f x y z)) ->
  vec3 n w w' t f a b c = Ok y -> wf_rv y.
Proof.
  intros n w w' t f a b c y N W W' T F E. eapply of_lanes_wf; [exact W'|exact T| |  |exact E]; unfold map2.
  - rewrite map_length, !combine_length, !lanes_length. lia.
  - apply Forall_map. eapply Forall_impl; [|apply forall_combine; [apply lanes_Forall; exact W|apply forall_combine; apply lanes_Forall; exact W]].
    intros [x1 [x2 x3]] (X1 & X2 & X3). apply F; assumption.
Qed.

(** ** Scalars *)
Lemma ibin_wf : forall o w a b, 0 < w -> inr w a -> inr w b -> iwf w (ibin o w a b).
Proof.
  intros o w a b W A B. assert (TR : forall z, inr w (trunc w z)) by (intro; apply trunc_range; lia).
  destruct o; cbn [ibin]; repeat match goal with |- context [if ?b then _ else _] => destruct b eqn:? end; cbn [iwf]; auto.
  - unfold inr in *. assert (0 < b) by lia. split; [apply Z.div_pos; lia|]. apply Z.le_lt_trans with a; [apply Z.div_le_upper_bound; nia|lia].
  - unfold inr in *. pose proof (Z.mod_pos_bound a b ltac:(lia)). lia.
  - apply shiftr_inr; unfold inr in *; lia.
  - apply land_inr; try assumption; lia.
  - apply lor_inr; try assumption; lia.
  - apply lxor_inr; try assumption; lia.
Qed.
Lemma pow_gt : forall w, 0 <= w -> w < 2^w.
Proof. intros w W. apply Z.pow_gt_lin_r; lia. Qed.
Lemma cttz_range : forall z n i, 0 <= i -> i <= cttz_from z i n <= i + Z.of_nat n.
Proof. induction n as [|n IH]; intros i P; cbn [cttz_from]; [lia|]. destruct (Z.testbit z i); [lia|]. specialize (IH (i + 1) ltac:(lia)). lia. Qed.
Lemma bitrev_range : forall z w n, Z.of_nat n <= w -> 0 <= bitrev_nat z w n <= 2^w - 2^(w - Z.of_nat n).
Proof.
  induction n as [|n IH]; intro N.
  - cbn [bitrev_nat]. replace (w - Z.of_nat 0) with w by lia. lia.
  - cbn [bitrev_nat]. specialize (IH ltac:(lia)). replace (w - Z.of_nat (S n)) with (w - 1 - Z.of_nat n) by lia.
    assert (Q : 2^(w - Z.of_nat n) = 2 * 2^(w - 1 - Z.of_nat n)) by (rewrite pow2_succ by lia; do 2 f_equal; lia).
    pose proof (pow2_pos (w - 1 - Z.of_nat n) ltac:(lia)). unfold b2z. destruct (Z.testbit z (Z.of_nat n)); lia.
Qed.
Lemma intr1_wf : forall i w a, 0 < w -> inr w a -> iwf w (intr1_sem i w a).
Proof.
  intros i w a W A. pose proof (pow_gt w ltac:(lia)) as PG.
  destruct i as [|zp|zp| | |mp]; cbn [intr1_sem].
  - cbn [iwf]. unfold popcount. pose proof (popcount_nat_range (Z.to_nat w) a). unfold inr. lia.
  - destruct (Z.eqb_spec a 0) as [->|N]; [destruct zp; cbn [iwf]; [exact I|unfold inr; lia]|]. cbn [iwf]. unfold inr in *.
    pose proof (Z.log2_nonneg a). assert (Z.log2 a < w) by (apply Z.log2_lt_pow2; lia). lia.
  - destruct (Z.eqb_spec a 0) as [->|N]; [destruct zp; cbn [iwf]; [exact I|unfold inr; lia]|]. cbn [iwf]. unfold inr in *.
    pose proof (cttz_range a (Z.to_nat w) 0 ltac:(lia)). lia.
  - cbn [iwf]. unfold bswap_sem. apply inr_le with (8 * (w / 8)).
    + pose proof (Z.mul_div_le w 8 ltac:(lia)). pose proof (Z.div_pos w 8). lia.
    + replace (8 * (w / 8)) with (8 * Z.of_nat (length (rev (lanes (w / 8) 8 a)))).
      * apply unlanes_inr; [lia|]. apply Forall_rev, lanes_Forall. lia.
      * rewrite rev_length, lanes_length. pose proof (Z.div_pos w 8). lia.
  - cbn [iwf]. pose proof (bitrev_range a w (Z.to_nat w) ltac:(lia)) as B. replace (w - Z.of_nat (Z.to_nat w)) with 0 in B by lia. unfold inr. lia.
  - pose proof (sgn_range w a W A). rewrite (pow2_succ w) in PG by assumption. destruct (Z.eqb_spec a (2^(w-1))) as [->|N]; [destruct mp; cbn [iwf]; [exact I|exact A]|].
    cbn [iwf]. unfold inr. rewrite (pow2_succ w) by assumption. pose proof (pow2_pos (w-1) ltac:(lia)). lia.
Qed.
Lemma intr2_wf : forall i w a b, 0 < w -> inr w a -> inr w b -> inr w (intr2_sem i w a b).
Proof.
  intros i w a b W A B. pose proof (pow2_pos w ltac:(lia)).
  destruct i; cbn [intr2_sem]; try (apply trunc_range; lia); try (match goal with |- context [if ?x then _ else _] => destruct x end; assumption);
    unfold clamp, inr in *; repeat match goal with |- context [if ?x then _ else _] => destruct x eqn:? end; lia.
Qed.
Lemma icast_wf : forall c w w' f z, 0 < w -> 0 < w' -> icast c w w' = Some f -> inr w z -> inr w' (f z).
Proof.
  intros c w w' f z W W' E Z0. destruct c; cbn [icast] in E; try discriminate.
  - destruct (w' <=? w); [|discriminate]. injection E as <-. apply trunc_range. lia.
  - destruct (Z.leb_spec w w'); [|discriminate]. injection E as <-. apply inr_le with w; [lia|assumption].
  - destruct (w <=? w'); [|discriminate]. injection E as <-. apply trunc_range. lia.
  - injection E as <-. apply trunc_range. lia.
Qed.
Lemma unl_wf : forall w n l, 0 <= w -> Z.of_nat (length l) = n -> Forall (inr w) l -> inr (n * w) (unlanes w l).
Proof. intros w n l W <- F. rewrite Z.mul_comm. apply unlanes_inr; assumption. Qed.
Lemma cast_wf : forall c s t f z, twf s = true -> twf t = true -> cast_fun c s t = Some f -> inr (tsize s) z -> inr (tsize t) (f z).
Proof.
  intros c s t f z S T E Z0. unfold cast_fun in E. destruct (ty_eqb s t) eqn:Q; [apply ty_eqb_eq in Q; subst; injection E as <-; exact Z0|]. clear Q.
  assert (SZ : (if (tsize s =? tsize t) && negb (is_ptr s) && negb (is_ptr t) then Some (fun z : Z => z) else None) = Some f -> inr (tsize t) (f z)).
  { clear E. destruct (Z.eqb_spec (tsize s) (tsize t)) as [Q|]; [|discriminate]. cbn [andb]. destruct (negb (is_ptr s) && negb (is_ptr t)); [|discriminate]. intro E. injection E as <-. congruence. }
  assert (PI : forall w : Z, (if w =? 64 then Some (fun z : Z => z) else None) = Some f -> inr 64 z -> inr w z -> inr w (f z) /\ inr 64 (f z)).
  { intros w X. destruct (w =? 64); [|discriminate]. injection X as <-. auto. }
  assert (PJ : forall w : Z, (if w =? 64 then Some (fun z : Z => z) else None) = Some f -> w = 64 /\ f z = z).
  { intros w X. destruct (Z.eqb_spec w 64); [|discriminate]. injection X as <-. auto. }
  destruct c; cbn [twf] in *.
  5: exact (SZ E).
  5: { destruct s; try discriminate; destruct t; try discriminate. destruct (PJ _ E) as [-> ->]. exact Z0. }
  5: { destruct s; try discriminate; destruct t; try discriminate. destruct (PJ _ E) as [-> ->]. exact Z0. }
  5: { destruct s as [w| | | |n s]; destruct t as [w'| | | |n' t]; try exact (SZ E); destruct (PJ _ E) as [-> ->]; exact Z0. }
  all: destruct s as [w| | | |n [w| | | |? ?]]; try discriminate; destruct t as [w'| | | |n' [w'| | | |? ?]]; try discriminate; cbn [tsize twf] in *;
    [eapply icast_wf; [| |exact E|exact Z0]; lia|].
  all: destruct (Z.eqb_spec n n') as [<-|]; [|discriminate]; match type of E with context [icast ?k ?p ?q] => destruct (icast k p q) as [g|] eqn:IC; [|discriminate] end; injection E as <-;
    apply unl_wf; [lia|rewrite map_length, lanes_len by lia; lia|]; apply Forall_map; eapply Forall_impl; [|apply lanes_Forall; lia]; intros a X; eapply icast_wf; [| |exact IC|exact X]; lia.
Qed.

Section Wf.
Context `{FpuOps}.
Lemma fires_wf : forall n s t l, twf t = true -> iwf (tsize t) (fires n s t l).
Proof. intros n s t l T. unfold fires. destruct (fpu_op n s t l); [|exact I]. cbn [iwf]. apply trunc_range. pose proof (twf_size t T). lia. Qed.
Lemma elt_size : forall t, twf t = true -> 0 < fst (elt t) /\ twf (snd (elt t)) = true /\ tsize t = fst (elt t) * tsize (snd (elt t)).
Proof. intros [w| | | |n t] T; cbn [elt fst snd tsize twf] in *; try (repeat split; (reflexivity || lia)). apply andb_prop in T. destruct T. repeat split; (assumption || lia). Qed.
Lemma upd_nth_len : forall (T : Type) i (x : T) l, length (upd_nth i x l) = length l.
Proof. induction i; intros x [|y l]; cbn [upd_nth length]; auto. Qed.
Lemma upd_nth_all : forall (T : Type) (P : T -> Prop) i x l, P x -> Forall P l -> Forall P (upd_nth i x l).
Proof. induction i; intros x [|y l] X F; cbn [upd_nth]; inversion F; subst; constructor; auto. Qed.

Lemma sem1_wf : forall o x y t, ty1 o (ty_of x) = Some t -> twf (ty_of x) = true -> twf t = true -> wf_rv x -> sem1 o x = Ok y -> wf_rv y.
Proof.
  intros o x y t TY TX TT W E. destruct o as [c s|i|i|n|f s]; cbn [sem1 ty1] in *.
  - unfold cast_sem in E. destruct (cast_fun c (ty_of x) s) as [g|] eqn:C; [|discriminate]. injection TY as ->. destruct x as [u z|u]; injection E as <-; [|exact I].
    cbn [wf_rv ty_of] in *. exact (cast_wf c u t g z TX TT C W).
  - destruct x as [u z|u]; cbn [intr1_rv ty_of wf_rv] in *.
    + destruct u as [w| | | |n [w| | | |? ?]]; cbn [int_shape tsize twf] in *; try discriminate.
      * eapply of_ires_wf; [|exact E]. apply intr1_wf; [lia|exact W].
      * apply (vec1_wf _ _ _ _ _ _ _) in E; [exact E|lia..|reflexivity|]. intros a A. apply intr1_wf; [lia|exact A].
    + destruct (int_shape u); try discriminate; injection E as <-; exact I.
  - unfold extract_sem in E. destruct (ty_of x) as [| | | |n u]; try discriminate. destruct (_ && _); [|discriminate]. injection TY as ->.
    destruct x; injection E as <-; [|exact I]. cbn [wf_rv]. apply lane_inr. pose proof (twf_size t TT). lia.
  - injection TY as <-. cbn [twf] in TT. destruct x as [u z|u]; injection E as <-; [|exact I]. cbn [wf_rv tsize ty_of] in *. apply unl_wf.
    + pose proof (twf_size u TX). lia.
    + rewrite repeat_length. lia.
    + apply Forall_forall. intros q Q. apply repeat_spec in Q. subst q. exact W.
  - unfold fp1_sem in E. destruct (elt_size _ TX) as (N1 & T1 & Q1). assert (s = t) as -> by (destruct (_ =? _); [congruence|discriminate]). destruct (elt_size _ TT) as (N2 & T2 & Q2).
    destruct (elt (ty_of x)) as [n e], (elt t) as [n' e']. cbn [fst snd] in *. destruct (Z.eqb_spec n n') as [<-|]; [|discriminate].
    destruct x as [u z|u]; [|injection E as <-; exact I]. pose proof (twf_size _ T1). pose proof (twf_size _ T2).
    apply (vec1_wf _ _ _ _ _ _ _) in E; [exact E|lia..|exact Q2|]. intros; apply fires_wf; assumption.
Qed.
Lemma sem2_wf : forall o x y r t, ty2 o (ty_of x) (ty_of y) = Some t -> twf (ty_of x) = true -> twf (ty_of y) = true -> twf t = true -> wf_rv x -> wf_rv y -> sem2 o x y = Ok r -> wf_rv r.
Proof.
  intros o x y r t TY TX TW TT W1 W2 E. destruct o as [b|p|i|o| |i|m|f s]; cbn [sem2 ty2] in *.
  - unfold bin_sem, same2 in E. destruct (ty_eqb (ty_of x) (ty_of y)) eqn:Q; [|discriminate]. apply ty_eqb_eq in Q.
    destruct x as [u a|u], y as [u' a'|u']; cbn [ty_of wf_rv] in *; subst u';
      try (destruct (int_shape u); try discriminate; destruct (is_div b); try discriminate; injection E as <-; exact I).
    destruct u as [w| | | |n [w| | | |? ?]]; cbn [int_shape tsize twf] in *; try discriminate.
    + eapply of_ires_wf; [|exact E]. apply ibin_wf; [lia|assumption..].
    + apply (vec2_wf _ _ _ _ _ _ _ _) in E; [exact E|lia..|reflexivity|]. intros; apply ibin_wf; [lia|assumption..].
  - unfold cmp_sem, same2 in E. destruct (ty_eqb (ty_of x) (ty_of y)) eqn:Q; [|discriminate]. apply ty_eqb_eq in Q.
    destruct x as [u a|u], y as [u' a'|u']; cbn [ty_of wf_rv] in *; subst u'; destruct u as [w| | | |n [w| | | |? ?]]; try discriminate; try (injection E as <-; first [exact I|cbn [wf_rv tsize]; apply inr_b2z; lia]).
    cbn [twf] in *. apply (vec2_wf _ _ _ _ _ _ _ _) in E; [exact E|lia..|reflexivity|]. intros. cbn [iwf]. apply inr_b2z. lia.
  - unfold intr2_rv, same2 in E. destruct (ty_eqb (ty_of x) (ty_of y)) eqn:Q; [|discriminate]. apply ty_eqb_eq in Q.
    destruct x as [u a|u], y as [u' a'|u']; cbn [ty_of wf_rv] in *; subst u';
      try (destruct (int_shape u); try discriminate; injection E as <-; exact I).
    destruct u as [w| | | |n [w| | | |? ?]]; cbn [int_shape tsize twf] in *; try discriminate.
    + injection E as <-. apply intr2_wf; [lia|assumption..].
    + apply (vec2_wf _ _ _ _ _ _ _ _) in E; [exact E|lia..|reflexivity|]. intros; apply intr2_wf; [lia|assumption..].
  - unfold ov_rv, same2 in E. destruct (ty_eqb (ty_of x) (ty_of y)) eqn:Q; [|discriminate].
    destruct x as [u a|u], y as [u' a'|u']; destruct u as [w| | | |n u]; try discriminate; injection E as <-; first [exact I|cbn [wf_rv tsize]; apply inr_b2z; lia].
  - rewrite gep_eq in E. destruct (ty_of x); try discriminate. destruct (ty_eqb (ty_of y) (TInt 64)); [|discriminate].
    destruct x, y; injection E as <-; first [exact I|cbn [wf_rv tsize]; apply trunc_range; lia].
  - unfold insert_sem in E. destruct (ty_of x) as [| | | |n u]; try discriminate. destruct (ty_eqb u (ty_of y)) eqn:Q; cbn [andb] in *; [|discriminate]. apply ty_eqb_eq in Q. destruct ((0 <=? i) && (i <? n)); [|discriminate].
    cbn [twf] in TX. apply andb_prop in TX. destruct TX as [TN TU]. destruct x as [tx a|tx], y as [ty b|ty]; injection E as <-; try exact I. cbn [wf_rv tsize ty_of] in *. subst u. pose proof (twf_size ty TU). apply unl_wf.
    + lia.
    + rewrite upd_nth_len. apply lanes_len. lia.
    + apply upd_nth_all; [exact W2|apply lanes_Forall; lia].
  - unfold shuf_sem in E. destruct (ty_of x) as [| | | |n u]; try discriminate. destruct (_ && _); [|discriminate]. injection TY as <-. cbv zeta in E.
    destruct (existsb (fun i => i =? -1) m); [injection E as <-; exact I|]. cbn [twf] in *. apply andb_prop in TX. destruct TX as [TN TU]. pose proof (twf_size u TU) as SU.
    assert (G : forall g : Z -> Z, (forall i, inr (tsize u) (g i)) -> wf_rv (V (TVec (Z.of_nat (length m)) u) (unlanes (tsize u) (map g m)))).
    { intros g G. cbn [wf_rv tsize]. apply unl_wf; [lia|rewrite map_length; reflexivity|]. apply Forall_map, Forall_forall. auto. }
    destruct x as [tx a|tx], y as [ty b|ty]; repeat match type of E with context [if existsb ?f m then _ else _] => destruct (existsb f m) end; injection E as <-; try exact I; apply G; intro j;
      try (destruct (j <? n)); apply lane_inr; lia.
  - unfold fp2_sem in E. destruct (elt_size _ TX) as (N1 & T1 & Q1). assert (s = t) as -> by (destruct (_ && _); [congruence|discriminate]). destruct (elt_size _ TT) as (N2 & T2 & Q2).
    destruct (elt (ty_of x)) as [n e], (elt t) as [n' e']. cbn [fst snd] in *. destruct (Z.eqb_spec n n') as [<-|]; [|discriminate]. cbn [andb] in E. destruct (_ && _) in E; [|discriminate].
    destruct x as [u z|u]; [|injection E as <-; exact I]. destruct y as [u' z'|u']; [|injection E as <-; exact I]. pose proof (twf_size _ T1). pose proof (twf_size _ T2).
    apply (vec2_wf _ _ _ _ _ _ _ _) in E; [exact E|lia..|exact Q2|]. intros; apply fires_wf; assumption.
Qed.
Lemma sem3_wf : forall o x y z r t, ty3 o (ty_of x) (ty_of y) (ty_of z) = Some t -> twf (ty_of x) = true -> twf (ty_of y) = true -> twf (ty_of z) = true -> twf t = true ->
  wf_rv x -> wf_rv y -> wf_rv z -> sem3 o x y z = Ok r -> wf_rv r.
Proof.
  intros o x y z r t TY TX TW TZ TT W1 W2 W3 E. destruct o as [|l|f s]; cbn [sem3 ty3] in *.
  - unfold sel_sem in E. destruct (ty_eqb (ty_of y) (ty_of z)) eqn:Q; [|discriminate]. apply ty_eqb_eq in Q.
    destruct (ty_eqb (ty_of x) (TInt 1)) eqn:Q1.
    + apply ty_eqb_eq in Q1. rewrite Q1 in E. destruct x as [u a|u]; injection E as <-; [destruct (a =? 0); assumption|exact I].
    + destruct (ty_of x) as [| | | |n e]; try discriminate. destruct (ty_of y) as [| | | |n' u] eqn:TY'; try discriminate.
      destruct ((n =? n') && ty_eqb e (TInt 1)) eqn:Q2; [|discriminate]. apply andb_prop in Q2. destruct Q2 as [Q2 Q3]. apply ty_eqb_eq in Q3. apply Z.eqb_eq in Q2. subst. injection TY as <-.
      rewrite Z.eqb_refl in E. destruct x, y, z; try (injection E as <-; exact I). cbn [twf] in *. apply andb_prop in TW. destruct TW as [TN TU]. pose proof (twf_size u TU).
      apply (vec3_wf _ _ _ _ _ _ _ _ _) in E; [exact E|lia..|reflexivity|]. intros k a b K A B. cbn [iwf]. destruct (k =? 0); assumption.
  - unfold fsh_rv in E. destruct (_ && _); [|discriminate]. destruct (ty_of x); try discriminate. cbn [twf] in TX. injection TY as <-.
    destruct x, y, z; injection E as <-; try exact I. cbn [wf_rv tsize]. unfold fsh_sem. cbv zeta. destruct l; apply trunc_range; lia.
  - unfold fp3_sem in E. destruct (elt_size _ TX) as (N1 & T1 & Q1). assert (s = t) as -> by (destruct (_ && _); [congruence|discriminate]). destruct (elt_size _ TT) as (N2 & T2 & Q2).
    destruct (elt (ty_of x)) as [n e], (elt t) as [n' e']. cbn [fst snd] in *. destruct (Z.eqb_spec n n') as [<-|]; [|discriminate]. cbn [andb] in E. destruct (_ && _) in E; [|discriminate].
    destruct x as [u a|u]; [|injection E as <-; exact I]. destruct y as [u' a'|u']; [|injection E as <-; exact I]. destruct z as [u2 a2|u2]; [|injection E as <-; exact I].
    pose proof (twf_size _ T1). pose proof (twf_size _ T2).
    apply (vec3_wf _ _ _ _ _ _ _ _ _) in E; [exact E|lia..|exact Q2|]. intros; apply fires_wf; assumption.
Qed.

(** ** Expressions *)
(** The type of an expression, given those of its leaves ([None]: ill-typed). *)
Section Ety.
Variable L : Type.
Variable lty : L -> ty.
Definition chk_ty (o : option ty) : option ty := match o with Some t => if twf t then Some t else None | None => None end.
Fixpoint ety (x : exp L) : option ty :=
  match x with
  | ELeaf l => chk_ty (Some (lty l))
  | EConst t _ | EUndef t => chk_ty (Some t)
  | E1 o a => match ety a with Some s => chk_ty (ty1 o s) | None => None end
  | E2 o a b => match ety a, ety b with Some s, Some u => chk_ty (ty2 o s u) | _, _ => None end
  | E3 o a b d => match ety a, ety b, ety d with Some s, Some u, Some v => chk_ty (ty3 o s u v) | _, _, _ => None end
  | EIf a b d => match ety a, ety b, ety d with Some s, Some u, Some v => if ty_eqb s (TInt 1) && ty_eqb u v then Some u else None | _, _, _ => None end
  end.
Lemma chk_inv : forall o t, chk_ty o = Some t -> o = Some t /\ twf t = true.
Proof. intros [u|] t E; cbn [chk_ty] in E; [|discriminate]. destruct (twf u) eqn:W; [|discriminate]. injection E as ->. auto. Qed.
Variable env : L -> rv.
Hypothesis OK : forall l, ty_of (env l) = lty l /\ wf_rv (env l).
Lemma ety_ok : forall x t v, ety x = Some t -> eval (fun l => Ok (env l)) x = Ok v -> ty_of v = t /\ twf t = true /\ wf_rv v.
Proof.
  induction x as [l|u z|u|o a IHa|o a IHa b IHb|o a IHa b IHb d IHd|a IHa b IHb d IHd]; intros t v T E; cbn [ety eval] in *.
  - apply chk_inv in T. destruct T as [T W]. injection T as <-. injection E as <-. destruct (OK l). auto.
  - apply chk_inv in T. destruct T as [T W]. injection T as <-. injection E as <-. split; [reflexivity|]. split; [exact W|]. cbn [wf_rv]. apply trunc_range. pose proof (twf_size _ W). lia.
  - apply chk_inv in T. destruct T as [T W]. injection T as <-. injection E as <-. cbn. auto.
  - destruct (ety a) as [s|]; [|discriminate]. apply chk_inv in T. destruct T as [T W]. destruct (eval _ a) as [x| |]; try discriminate. cbn [bind] in E.
    destruct (IHa s x eq_refl eq_refl) as (X1 & X2 & X3). rewrite <- X1 in *. destruct (sem1_ty o x t T) as (y & Y1 & Y2). rewrite E in Y1. injection Y1 as <-.
    split; [exact Y2|]. split; [exact W|]. eapply sem1_wf; eassumption.
  - destruct (ety a) as [s|]; [|discriminate]. destruct (ety b) as [u|]; [|discriminate]. apply chk_inv in T. destruct T as [T W].
    destruct (eval _ a) as [x| |]; try discriminate. destruct (eval _ b) as [y| |]; try discriminate. cbn [bind] in E.
    destruct (IHa s x eq_refl eq_refl) as (X1 & X2 & X3). destruct (IHb u y eq_refl eq_refl) as (Y1 & Y2 & Y3). rewrite <- X1, <- Y1 in *.
    split; [eapply sem2_ty; eassumption|]. split; [exact W|]. eapply sem2_wf; eassumption.
  - destruct (ety a) as [s|]; [|discriminate]. destruct (ety b) as [u|]; [|discriminate]. destruct (ety d) as [q|]; [|discriminate]. apply chk_inv in T. destruct T as [T W].
    destruct (eval _ a) as [x| |]; try discriminate. destruct (eval _ b) as [y| |]; try discriminate. destruct (eval _ d) as [z| |]; try discriminate. cbn [bind] in E.
    destruct (IHa s x eq_refl eq_refl) as (X1 & X2 & X3). destruct (IHb u y eq_refl eq_refl) as (Y1 & Y2 & Y3). destruct (IHd q z eq_refl eq_refl) as (Z1 & Z2 & Z3). rewrite <- X1, <- Y1, <- Z1 in *.
    split; [eapply sem3_ty; eassumption|]. split; [exact W|]. eapply sem3_wf; eassumption.
  - destruct (ety a) as [s|]; [|discriminate]. destruct (ety b) as [u|]; [|discriminate]. destruct (ety d) as [q|]; [|discriminate].
    destruct (ty_eqb s (TInt 1) && ty_eqb u q) eqn:Q; [|discriminate]. apply andb_prop in Q. destruct Q as [_ Q]. apply ty_eqb_eq in Q. subst q. injection T as <-.
    destruct (eval _ a) as [x| |]; try discriminate. cbn [bind] in E.
    assert (CS : eval (fun l => Ok (env l)) b = Ok v \/ eval (fun l => Ok (env l)) d = Ok v).
    { repeat match type of E with context [match ?x with _ => _ end] => destruct x; try discriminate end; auto. }
    destruct CS as [CS|CS]; [apply (IHb u v eq_refl CS)|apply (IHd u v eq_refl CS)].
Qed.
End Ety.
End Wf.
