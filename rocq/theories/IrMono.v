(** Typing of IR expressions, and monotonicity of their evaluation: an expression
    evaluated with more defined operands has a more defined result. Nothing here
    models code of /repo. *)

From Coq Require Import ZArith Lia ZifyBool List Bool.
From Verif Require Import Bits IR.
Import ListNotations.
Open Scope Z_scope.

(** [x] is poison or equal to [y]. *)
Definition rle (x y : rv) : Prop := x = y \/ x = Poison (ty_of y).
Lemma rle_refl : forall x, rle x x.
Proof. left. reflexivity. Qed.
Lemma rle_ty : forall x y, rle x y -> ty_of x = ty_of y.
Proof. intros x y [->| ->]; reflexivity. Qed.
Lemma rle_V : forall t z y, rle (V t z) y -> y = V t z.
Proof. intros t z y [<-|E]; [reflexivity|discriminate]. Qed.
Lemma rle_trans : forall x y z, rle x y -> rle y z -> rle x z.
Proof. intros x y z [->| ->] [->| ->]; cbn; try (left; reflexivity); right; reflexivity. Qed.
Definition rleo (x : rv) (y : res rv) : Prop := exists y', y = Ok y' /\ rle x y'.
Lemma rleo_refl : forall x, rleo x (Ok x).
Proof. intros x. exists x. split; [reflexivity|apply rle_refl]. Qed.
Lemma rleo_P : forall t y, (exists y', y = Ok y' /\ ty_of y' = t) -> rleo (Poison t) y.
Proof. intros t y (y' & -> & <-). exists y'. split; [reflexivity|right; reflexivity]. Qed.

(** ** Element-wise operations always have a result, of the right type *)
Lemma seq_ok : forall l, (forall x, In x l -> x <> IU) -> exists o, seq_ires l = Ok o.
Proof.
  induction l as [|x l IH]; intros N; [eexists; reflexivity|]. destruct IH as [o E]; [intros y I; apply N; right; assumption|].
  cbn [seq_ires]. rewrite E. specialize (N x (or_introl eq_refl)). destruct x; [|destruct o; eexists; reflexivity|congruence].
  destruct o; eexists; reflexivity.
Qed.
Lemma lanes_ok : forall t w l, (forall x, In x l -> x <> IU) -> exists y, of_lanes t w (seq_ires l) = Ok y /\ ty_of y = t.
Proof. intros t w l N. destruct (seq_ok l N) as [[zs|] ->]; eexists; split; reflexivity. Qed.
Lemma vec1_ok : forall n w w' t f a, (forall x, f x <> IU) -> exists y, vec1 n w w' t f a = Ok y /\ ty_of y = t.
Proof. intros. apply lanes_ok. intros x I. apply in_map_iff in I. destruct I as (z & <- & _). auto. Qed.
Lemma vec2_ok : forall n w w' t f a b, (forall x y, f x y <> IU) -> exists y, vec2 n w w' t f a b = Ok y /\ ty_of y = t.
Proof. intros. apply lanes_ok. intros x I. unfold map2 in I. apply in_map_iff in I. destruct I as (z & <- & _). auto. Qed.
Lemma vec3_ok : forall n w w' t f a b c, (forall x y z, f x y z <> IU) -> exists y, vec3 n w w' t f a b c = Ok y /\ ty_of y = t.
Proof. intros. apply lanes_ok. intros x I. unfold map2 in I. apply in_map_iff in I. destruct I as (z & <- & _). auto. Qed.
Lemma lanes_ty : forall t w r y, of_lanes t w r = Ok y -> ty_of y = t.
Proof. intros t w r y E. destruct r as [[zs|]| |]; cbn in E; try discriminate; injection E as <-; reflexivity. Qed.
Lemma ires_ok : forall t r, r <> IU -> exists y, of_ires t r = Ok y /\ ty_of y = t.
Proof. intros t [z| |] N; [eexists; split; reflexivity..|congruence]. Qed.
Lemma ires_ty : forall t r y, of_ires t r = Ok y -> ty_of y = t.
Proof. intros t [z| |] y E; try discriminate; injection E as <-; reflexivity. Qed.
Lemma intr1_noub : forall i w a, intr1_sem i w a <> IU.
Proof. intros i w a. destruct i; cbn [intr1_sem]; repeat match goal with |- context [if ?b then _ else _] => destruct b end; discriminate. Qed.
Lemma ibin_noub : forall o w a b, is_div o = false -> ibin o w a b <> IU.
Proof. intros o w a b D. destruct o; try discriminate D; cbn [ibin]; repeat match goal with |- context [if ?b then _ else _] => destruct b end; discriminate. Qed.

Lemma gep_eq : forall x y, gep_sem x y =
  match ty_of x with
  | TPtr => if ty_eqb (ty_of y) (TInt 64) then match x, y with V _ a, V _ b => Ok (V TPtr (trunc 64 (a + b))) | _, _ => Ok (Poison TPtr) end else TyErr
  | _ => TyErr
  end.
Proof.
  intros x y. destruct (ty_of x) eqn:TX.
  2: { destruct (ty_eqb (ty_of y) (TInt 64)) eqn:Q.
       - apply ty_eqb_eq in Q. destruct x as [u a|u], y as [u' b|u']; cbn [ty_of] in TX, Q; subst; reflexivity.
       - assert (N : forall (T : Type) (w : Z) (p q : T), ty_eqb (TInt w) (TInt 64) = false -> match w with 64 => p | _ => q end = q).
         { intros T w p q X. cbn in X. destruct w as [|w|w]; try reflexivity. do 7 (destruct w as [w|w|]; try reflexivity). discriminate X. }
         destruct x as [u a|u], y as [[w| | | |? ?] b|[w| | | |? ?]]; cbn [ty_of] in TX, Q |- *; subst; try reflexivity; cbn [gep_sem ty_of]; rewrite ?N by exact Q; reflexivity. }
  all: destruct x as [u a|u]; cbn [ty_of] in TX; subst; reflexivity.
Qed.

Section Mono.
Context `{FpuOps}.
Lemma fires_noub : forall n s t l, fires n s t l <> IU.
Proof. intros. unfold fires. destruct (fpu_op n s t l); discriminate. Qed.

(** ** Result types *)
(** The type of the result, for operands of the given types ([None]: ill-typed). *)
Definition ty1 (o : op1) (s : ty) : option ty :=
  match o with
  | OCast c t => match cast_fun c s t with Some _ => Some t | None => None end
  | OIntr1 _ => match int_shape s with ShNone => None | _ => Some s end
  | OExtract i => match s with TVec n t => if (0 <=? i) && (i <? n) then Some t else None | _ => None end
  | OSplat n => Some (TVec n s)
  | OFp1 _ t => if fst (elt s) =? fst (elt t) then Some t else None
  end.
Definition ty2 (o : op2) (s u : ty) : option ty :=
  match o with
  | OBin _ | OIntr2 _ => if ty_eqb s u then match int_shape s with ShNone => None | _ => Some s end else None
  | OCmp _ => if ty_eqb s u then match s with TInt _ | TPtr | TVec _ (TInt _) => Some (cmp_ty s) | _ => None end else None
  | OOv _ => if ty_eqb s u then match s with TInt _ => Some (TInt 1) | _ => None end else None
  | OGep => match s with TPtr => if ty_eqb u (TInt 64) then Some TPtr else None | _ => None end
  | OInsert i => match s with TVec n t => if ty_eqb t u && (0 <=? i) && (i <? n) then Some s else None | _ => None end
  | OShuf m => match s with
               | TVec n t => if ty_eqb s u && forallb (fun i => (-1 <=? i) && (i <? 2 * n)) m then Some (TVec (Z.of_nat (length m)) t) else None
               | _ => None
               end
  | OFp2 _ t => if (fst (elt s) =? fst (elt t)) && ty_eqb s u && is_fp (snd (elt s)) then Some t else None
  end.
Definition ty3 (o : op3) (s u v : ty) : option ty :=
  match o with
  | OSel => if ty_eqb u v then
              if ty_eqb s (TInt 1) then Some u
              else match s, u with TVec n e, TVec n' _ => if (n =? n') && ty_eqb e (TInt 1) then Some u else None | _, _ => None end
            else None
  | OFsh _ => if ty_eqb s u && ty_eqb u v then match s with TInt _ => Some s | _ => None end else None
  | OFp3 _ t => if (fst (elt s) =? fst (elt t)) && ty_eqb s u && ty_eqb s v && is_fp (snd (elt s)) then Some t else None
  end.

Ltac teq := repeat match goal with
  | E : (_ && _) = true |- _ => apply andb_prop in E; destruct E
  | E : ty_eqb _ _ = true |- _ => apply ty_eqb_eq in E
  end.

(** ** Results: defined operands give a result of that type; division may be undefined *)
Lemma sem1_ty : forall o x t, ty1 o (ty_of x) = Some t -> exists y, sem1 o x = Ok y /\ ty_of y = t.
Proof.
  intros o x t T. destruct o as [c s|i|i|n|f s]; cbn [sem1 ty1] in *.
  - unfold cast_sem. destruct (cast_fun c (ty_of x) s); [|discriminate]. injection T as <-. destruct x; eexists; split; reflexivity.
  - destruct x as [u z|u]; cbn [ty_of intr1_rv] in *; destruct (int_shape u) eqn:S; try discriminate; injection T as <-;
      [apply ires_ok, intr1_noub|apply vec1_ok; intros; apply intr1_noub|eexists; split; reflexivity..].
  - unfold extract_sem. destruct (ty_of x) as [| | | |n u]; try discriminate. destruct ((0 <=? i) && (i <? n)); [|discriminate]. injection T as <-.
    destruct x; eexists; split; reflexivity.
  - injection T as <-. destruct x; eexists; split; reflexivity.
  - unfold fp1_sem. destruct (elt (ty_of x)) as [n e], (elt s) as [n' e']. cbn [fst] in T. destruct (n =? n'); [|discriminate]. injection T as <-.
    destruct x; [apply vec1_ok; intros; apply fires_noub|eexists; split; reflexivity].
Qed.
Lemma sem2_ty : forall o x y t r, ty2 o (ty_of x) (ty_of y) = Some t -> sem2 o x y = Ok r -> ty_of r = t.
Proof.
  intros o x y t r T E. destruct o as [b|p|i|o| |i|m|f s]; cbn [sem2 ty2] in *.
  - unfold bin_sem, same2 in E. destruct (ty_eqb (ty_of x) (ty_of y)) eqn:Q; [|discriminate].
    destruct x, y; cbn [ty_of] in *; (destruct (int_shape t0) eqn:S; try discriminate; injection T as <-);
      first [eapply ires_ty; exact E|eapply lanes_ty; exact E|destruct (is_div b); [discriminate|]; injection E as <-; reflexivity].
  - unfold cmp_sem, same2 in E. destruct (ty_eqb (ty_of x) (ty_of y)) eqn:Q; [|discriminate].
    destruct x as [u a|u], y as [u' b|u']; cbn [ty_of] in *; destruct u as [w| | | |n [w| | | |? ?]]; try discriminate; injection T as <-;
      try (injection E as <-; reflexivity). eapply lanes_ty; exact E.
  - unfold intr2_rv, same2 in E. destruct (ty_eqb (ty_of x) (ty_of y)) eqn:Q; [|discriminate].
    destruct x, y; cbn [ty_of] in *; (destruct (int_shape t0) eqn:S; try discriminate; injection T as <-);
      first [injection E as <-; reflexivity|eapply lanes_ty; exact E].
  - unfold ov_rv, same2 in E. destruct (ty_eqb (ty_of x) (ty_of y)) eqn:Q; [|discriminate].
    destruct x as [u a|u], y as [u' b|u']; cbn [ty_of] in *; destruct u as [w| | | |n u]; try discriminate; injection T as <-; injection E as <-; reflexivity.
  - rewrite gep_eq in E. destruct (ty_of x) eqn:TX; try discriminate. destruct (ty_eqb (ty_of y) (TInt 64)) eqn:Q; [|discriminate]. injection T as <-.
    destruct x, y; injection E as <-; reflexivity.
  - unfold insert_sem in E. destruct (ty_of x) as [| | | |n u]; try discriminate. destruct (ty_eqb u (ty_of y) && (0 <=? i) && (i <? n)); [|discriminate]. injection T as <-.
    destruct x, y; injection E as <-; reflexivity.
  - unfold shuf_sem in E. destruct (ty_of x) as [| | | |n u] eqn:TX; try discriminate.
    destruct (ty_eqb (TVec n u) (ty_of y) && forallb (fun i : Z => (-1 <=? i) && (i <? 2 * n)) m); [|discriminate]. injection T as <-. cbv zeta in E.
    destruct (existsb (fun i => i =? -1) m); [injection E as <-; reflexivity|].
    destruct x, y; repeat match type of E with context [if existsb ?f m then _ else _] => destruct (existsb f m) end; injection E as <-; reflexivity.
  - unfold fp2_sem in E. destruct (elt (ty_of x)) as [n e], (elt s) as [n' e']. cbn [fst snd] in T.
    destruct ((n =? n') && ty_eqb (ty_of x) (ty_of y) && is_fp e); [|discriminate]. injection T as <-.
    destruct x, y; try (injection E as <-; reflexivity). eapply lanes_ty; exact E.
Qed.
Lemma sem3_ty : forall o x y z t r, ty3 o (ty_of x) (ty_of y) (ty_of z) = Some t -> sem3 o x y z = Ok r -> ty_of r = t.
Proof.
  intros o x y z t r T E. destruct o as [|l|f s]; cbn [sem3 ty3] in *.
  - unfold sel_sem in E. destruct (ty_eqb (ty_of y) (ty_of z)) eqn:Q; [|discriminate]. apply ty_eqb_eq in Q.
    destruct (ty_eqb (ty_of x) (TInt 1)) eqn:Q1.
    + apply ty_eqb_eq in Q1. injection T as <-. rewrite Q1 in E. destruct x as [u a|u]; injection E as <-; [destruct (a =? 0); congruence|reflexivity].
    + destruct (ty_of x) as [| | | |n e]; try discriminate. destruct (ty_of y) as [| | | |n' u] eqn:TY; try discriminate.
      destruct ((n =? n') && ty_eqb e (TInt 1)) eqn:Q2; [|discriminate]. apply andb_prop in Q2. destruct Q2 as [Q2 Q3]. apply ty_eqb_eq in Q3. apply Z.eqb_eq in Q2. subst. injection T as <-.
      rewrite Z.eqb_refl in E. destruct x, y, z; try (injection E as <-; reflexivity). eapply lanes_ty; exact E.
  - unfold fsh_rv in E. destruct (ty_eqb (ty_of x) (ty_of y) && ty_eqb (ty_of y) (ty_of z)); [|discriminate]. destruct (ty_of x); try discriminate. injection T as <-.
    destruct x, y, z; injection E as <-; reflexivity.
  - unfold fp3_sem in E. destruct (elt (ty_of x)) as [n e], (elt s) as [n' e']. cbn [fst snd] in T.
    destruct ((n =? n') && ty_eqb (ty_of x) (ty_of y) && ty_eqb (ty_of x) (ty_of z) && is_fp e); [|discriminate]. injection T as <-.
    destruct x, y, z; try (injection E as <-; reflexivity). eapply lanes_ty; exact E.
Qed.

(** ** Monotonicity *)
Ltac both X := destruct X as [->| ->].
Lemma sem1_mono : forall o x x' r, rle x x' -> sem1 o x = Ok r -> rleo r (sem1 o x').
Proof.
  intros o x x' r [->| ->] E; [rewrite E; apply rleo_refl|].
  assert (T : exists t, ty1 o (ty_of x') = Some t /\ r = Poison t).
  { destruct o as [c s|i|i|n|f s]; cbn [sem1 ty1] in *.
    - unfold cast_sem in E. cbn [ty_of] in E. destruct (cast_fun c (ty_of x') s); [|discriminate]. injection E as <-. eauto.
    - cbn [intr1_rv] in E. destruct (int_shape (ty_of x')); try discriminate; injection E as <-; eauto.
    - unfold extract_sem in E. cbn [ty_of] in E. destruct (ty_of x'); try discriminate. destruct ((0 <=? i) && (i <? n)); [|discriminate]. injection E as <-. eauto.
    - injection E as <-. eauto.
    - unfold fp1_sem in E. cbn [ty_of] in E. destruct (elt (ty_of x')) as [n e], (elt s) as [n' e']. cbn [fst]. destruct (n =? n'); [|discriminate]. injection E as <-. eauto. }
  destruct T as (t & T & ->). apply rleo_P, sem1_ty, T.
Qed.
Lemma shuf_low : forall n m a b w, existsb (fun i => n <=? i) m = false ->
  map (fun i => if i <? n then lane w a i else lane w b (i - n)) m = map (fun i => lane w a i) m.
Proof.
  induction m as [|i m IH]; intros a b w E; [reflexivity|]. cbn [existsb map] in *. apply orb_false_elim in E. destruct E as [E1 E2].
  rewrite IH by assumption. destruct (Z.ltb_spec i n); [reflexivity|lia].
Qed.
Lemma shuf_high : forall n m a b w, existsb (fun i => (0 <=? i) && (i <? n)) m = false -> existsb (fun i => i =? -1) m = false ->
  forallb (fun i => (-1 <=? i) && (i <? 2 * n)) m = true ->
  map (fun i => if i <? n then lane w a i else lane w b (i - n)) m = map (fun i => lane w b (i - n)) m.
Proof.
  induction m as [|i m IH]; intros a b w E F G; [reflexivity|]. cbn [existsb forallb map] in *. apply orb_false_elim in E. apply orb_false_elim in F. apply andb_prop in G.
  rewrite IH by tauto. destruct (Z.ltb_spec i n); [lia|reflexivity].
Qed.
Lemma sem2_mono : forall o x y x' y' r, rle x x' -> rle y y' -> sem2 o x y = Ok r -> rleo r (sem2 o x' y').
Proof.
  intros o x y x' y' r X Y E. destruct o as [b|p|i|o| |i|m|f s]; cbn [sem2] in *.
  - unfold bin_sem, same2 in *. rewrite (rle_ty _ _ X), (rle_ty _ _ Y) in E. destruct (ty_eqb (ty_of x') (ty_of y')) eqn:Q; [|discriminate].
    destruct x as [tx a|tx]; [apply rle_V in X; subst x'; destruct y as [tu u|tu]; [apply rle_V in Y; subst y'; rewrite E; apply rleo_refl|]|];
      (destruct (int_shape _) eqn:S in E; try discriminate; destruct (is_div b) eqn:D; try discriminate; injection E as <-; apply rleo_P).
    all: destruct x' as [tx' a'|tx'] || idtac; destruct y' as [tu' u'|tu'] || idtac; cbn [ty_of] in *; rewrite ?S, ?D;
      first [eexists; split; reflexivity|apply ires_ok, ibin_noub, D|apply vec2_ok; intros; apply ibin_noub, D].
  - unfold cmp_sem, same2 in *. rewrite (rle_ty _ _ X), (rle_ty _ _ Y) in E. destruct (ty_eqb (ty_of x') (ty_of y')) eqn:Q; [|discriminate].
    destruct x as [tx a|tx]; [apply rle_V in X; subst x'; destruct y as [tu u|tu]; [apply rle_V in Y; subst y'; rewrite E; apply rleo_refl|]|];
      (cbn [ty_of] in *; destruct x' as [tx' a'|tx'] || idtac; destruct y' as [tu' u'|tu'] || idtac; cbn [ty_of] in *;
       match type of E with match ?t with _ => _ end = _ => destruct t as [w| | | |n [w| | | |? ?]] end; try discriminate; injection E as <-; apply rleo_P;
       first [eexists; split; reflexivity|apply vec2_ok; discriminate]).
  - unfold intr2_rv, same2 in *. rewrite (rle_ty _ _ X), (rle_ty _ _ Y) in E. destruct (ty_eqb (ty_of x') (ty_of y')) eqn:Q; [|discriminate].
    destruct x as [tx a|tx]; [apply rle_V in X; subst x'; destruct y as [tu u|tu]; [apply rle_V in Y; subst y'; rewrite E; apply rleo_refl|]|];
      (destruct (int_shape _) eqn:S in E; try discriminate; injection E as <-; apply rleo_P).
    all: destruct x' as [tx' a'|tx'] || idtac; destruct y' as [tu' u'|tu'] || idtac; cbn [ty_of] in *; rewrite ?S;
      first [eexists; split; reflexivity|apply vec2_ok; discriminate].
  - unfold ov_rv, same2 in *. rewrite (rle_ty _ _ X), (rle_ty _ _ Y) in E. destruct (ty_eqb (ty_of x') (ty_of y')) eqn:Q; [|discriminate].
    destruct x as [tx a|tx]; [apply rle_V in X; subst x'; destruct y as [tu u|tu]; [apply rle_V in Y; subst y'; rewrite E; apply rleo_refl|]|];
      (cbn [ty_of] in *; destruct x' as [tx' a'|tx'] || idtac; destruct y' as [tu' u'|tu'] || idtac; cbn [ty_of] in *;
       match type of E with match ?t with _ => _ end = _ => destruct t as [w| | | |n u0] end; try discriminate; injection E as <-; apply rleo_P; eexists; split; reflexivity).
  - rewrite gep_eq in E |- *. rewrite (rle_ty _ _ X), (rle_ty _ _ Y) in E. destruct (ty_of x') eqn:TX; try discriminate. destruct (ty_eqb (ty_of y') (TInt 64)); [|discriminate].
    destruct x as [tx a|tx]; [apply rle_V in X; subst x'; destruct y as [tu v|tu]; [apply rle_V in Y; subst y'; rewrite E; apply rleo_refl|]|];
      (injection E as <-; apply rleo_P; destruct x' as [tx' a'|tx'] || idtac; destruct y' as [tu' u'|tu'] || idtac; eexists; split; reflexivity).
  - unfold insert_sem in *. rewrite (rle_ty _ _ X), (rle_ty _ _ Y) in E. destruct (ty_of x') as [| | | |n u] eqn:TX; try discriminate.
    destruct (ty_eqb u (ty_of y') && (0 <=? i) && (i <? n)); [|discriminate].
    destruct x as [tx a|tx]; [apply rle_V in X; subst x'; destruct y as [tu v|tu]; [apply rle_V in Y; subst y'; rewrite E; apply rleo_refl|]|];
      (injection E as <-; apply rleo_P; destruct x' as [tx' a'|tx'] || idtac; destruct y' as [tu' u'|tu'] || idtac; eexists; split; reflexivity).
  - unfold shuf_sem in *. rewrite (rle_ty _ _ X), (rle_ty _ _ Y) in E. destruct (ty_of x') as [| | | |n u] eqn:TX; try discriminate.
    destruct (ty_eqb (TVec n u) (ty_of y') && forallb (fun i : Z => (-1 <=? i) && (i <? 2 * n)) m) eqn:Q; [|discriminate]. apply andb_prop in Q. destruct Q as [_ FB].
    cbv zeta in *. destruct (existsb (fun i => i =? -1) m) eqn:M1; [rewrite E; apply rleo_refl|].
    destruct x as [tx a|tx].
    + apply rle_V in X; subst x'. destruct y as [tu v|tu]; [apply rle_V in Y; subst y'; rewrite E; apply rleo_refl|].
      destruct (existsb (fun i => n <=? i) m) eqn:UY.
      * injection E as <-. apply rleo_P. destruct y'; eexists; split; reflexivity.
      * injection E as <-. destruct y' as [tu' b'|tu']; [|apply rleo_refl]. rewrite shuf_low by assumption. apply rleo_refl.
    + destruct y as [tu v|tu].
      * apply rle_V in Y; subst y'. destruct (existsb (fun i => (0 <=? i) && (i <? n)) m) eqn:UX.
        -- injection E as <-. apply rleo_P. destruct x'; eexists; split; reflexivity.
        -- injection E as <-. destruct x' as [tx' a'|tx']; [|apply rleo_refl]. rewrite shuf_high by assumption. apply rleo_refl.
      * injection E as <-. apply rleo_P. destruct x', y';
          repeat match goal with |- context [if existsb ?f m then _ else _] => destruct (existsb f m) end; eexists; split; reflexivity.
  - unfold fp2_sem in *. rewrite (rle_ty _ _ X), (rle_ty _ _ Y) in E. destruct (elt (ty_of x')) as [n e], (elt s) as [n' e'].
    destruct ((n =? n') && ty_eqb (ty_of x') (ty_of y') && is_fp e); [|discriminate].
    destruct x as [tx a|tx]; [apply rle_V in X; subst x'; destruct y as [tu v|tu]; [apply rle_V in Y; subst y'; rewrite E; apply rleo_refl|]|];
      (injection E as <-; apply rleo_P; destruct x' as [tx' a'|tx'] || idtac; destruct y' as [tu' u'|tu'] || idtac;
       first [eexists; split; reflexivity|apply vec2_ok; intros; apply fires_noub]).
Qed.
Lemma sem3_mono : forall o x y z x' y' z' r, rle x x' -> rle y y' -> rle z z' -> sem3 o x y z = Ok r -> rleo r (sem3 o x' y' z').
Proof.
  intros o x y z x' y' z' r X Y Z0 E. destruct o as [|l|f s]; cbn [sem3] in *.
  - unfold sel_sem in *. pose proof (rle_ty _ _ X) as TX. pose proof (rle_ty _ _ Y) as TY. pose proof (rle_ty _ _ Z0) as TZ. rewrite TX, TY, TZ in E.
    destruct (ty_eqb (ty_of y') (ty_of z')) eqn:Q; [|discriminate]. apply ty_eqb_eq in Q.
    assert (C1 : ty_of x' = TInt 1 \/ exists n n' t, ty_of x' = TVec n (TInt 1) /\ ty_of y' = TVec n' t /\ (n =? n') = true).
    { destruct (ty_of x') as [[|[]|]| | | |n [[|[]|]| | | |]]; try discriminate; [left; reflexivity|right].
      destruct (ty_of y'); try discriminate. destruct (n =? n0) eqn:QN; [|discriminate]. eauto 6. }
    destruct C1 as [C1|(n & n' & t & C1 & C2 & C3)].
    + rewrite C1 in *. destruct x as [tx a|tx].
      * apply rle_V in X. subst x'. injection E as <-. destruct (a =? 0); eexists; (split; [reflexivity|assumption]).
      * injection E as <-. apply rleo_P. destruct x' as [tx' a'|tx']; eexists; (split; [reflexivity|]); [destruct (a' =? 0); congruence|reflexivity].
    + rewrite C1, C2, C3 in *.
      destruct x as [tx a|tx]; [apply rle_V in X; subst x'; destruct y as [tu v|tu]; [apply rle_V in Y; subst y'; destruct z as [tz w|tz]; [apply rle_V in Z0; subst z'; rewrite E; apply rleo_refl|]|]|];
      (injection E as <-; apply rleo_P; repeat match goal with |- context [match ?q with V _ _ => _ | Poison _ => _ end] => is_var q; destruct q end;
       first [eexists; split; reflexivity|apply vec3_ok; discriminate]).
  - unfold fsh_rv in *. rewrite (rle_ty _ _ X), (rle_ty _ _ Y), (rle_ty _ _ Z0) in E.
    destruct (ty_eqb (ty_of x') (ty_of y') && ty_eqb (ty_of y') (ty_of z')); [|discriminate]. destruct (ty_of x') as [w| | | |]; try discriminate.
    destruct x as [tx a|tx]; [apply rle_V in X; subst x'; destruct y as [tu v|tu]; [apply rle_V in Y; subst y'; destruct z as [tz q|tz]; [apply rle_V in Z0; subst z'; rewrite E; apply rleo_refl|]|]|];
      (injection E as <-; apply rleo_P; repeat match goal with |- context [match ?q with V _ _ => _ | Poison _ => _ end] => is_var q; destruct q end; eexists; split; reflexivity).
  - unfold fp3_sem in *. rewrite (rle_ty _ _ X), (rle_ty _ _ Y), (rle_ty _ _ Z0) in E. destruct (elt (ty_of x')) as [n e], (elt s) as [n' e'].
    destruct ((n =? n') && ty_eqb (ty_of x') (ty_of y') && ty_eqb (ty_of x') (ty_of z') && is_fp e); [|discriminate].
    destruct x as [tx a|tx]; [apply rle_V in X; subst x'; destruct y as [tu v|tu]; [apply rle_V in Y; subst y'; destruct z as [tz q|tz]; [apply rle_V in Z0; subst z'; rewrite E; apply rleo_refl|]|]|];
      (injection E as <-; apply rleo_P; repeat match goal with |- context [match ?q with V _ _ => _ | Poison _ => _ end] => is_var q; destruct q end;
       first [eexists; split; reflexivity|apply vec3_ok; intros; apply fires_noub]).
Qed.
End Mono.
