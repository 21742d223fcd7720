(** The RV64 lifter's floating-point arithmetic, comparisons, conversions and fcsr
    accesses against Rv64FpSpec. *)

From Coq Require Import ZArith Lia ZifyBool List Bool.
From Verif Require Import Bits IR Facet Dsl Rv64 Rv64Spec Rv64Sim Rv64Arith Rv64Int Rv64Mem Rv64Fp Rv64Step Rv64Bad Rv64FpSpec.
Import ListNotations.
Open Scope Z_scope.
Ltac Zify.zify_post_hook ::= Z.div_mod_to_equations.

Definition ffac (z : fsz) : facet := match z with FS => F32 | FD => F64 end.
(** The operand is NaN-boxed, as every single-precision result is. *)
Definition boxed (z : fsz) (f : Z) : Prop := match z with FS => f / 2^32 = 2^32 - 1 | FD => True end.
Lemma boxed_low : forall z g n, boxed z (g_f g n) -> inr 64 (g_f g n) -> trunc (fwid z) (g_f g n) = rf g z n.
Proof.
  intros [] g n B I; unfold rf; cbn [fwid].
  - unfold boxed in B. unfold unbox. rewrite B. reflexivity.
  - apply trunc_small, I.
Qed.

(** A value, or poison. *)
Definition rv_of (t : ty) (o : option Z) : rv := match o with Some v => V t (trunc (tsize t) v) | None => Poison t end.
Lemma lane1 : forall w x, inr w x -> lanes 1 w x = [x].
Proof.
  intros w x I. change (lanes 1 w x) with [lane w x 0]. f_equal. unfold lane. rewrite Z.mul_0_r. cbn [Z.shiftr Z.shiftl Z.opp].
  apply trunc_small, I.
Qed.
Definition scalar (t : ty) : Prop := elt t = (1, t).
Lemma fp1_scalar : forall `{FpuOps} f t t' x, scalar t -> scalar t' -> inr (tsize t) x ->
  fp1_sem f t' (V t x) = Ok (rv_of t' (fpu_op f t t' [x])).
Proof.
  intros F f t t' x T T' I. unfold fp1_sem. cbn [ty_of]. rewrite T, T', Z.eqb_refl. unfold vec1. rewrite lane1 by assumption.
  cbn [map]. unfold fires. destruct (fpu_op f t t' [x]) as [v|]; cbn [seq_ires of_lanes rv_of unlanes].
  - do 2 f_equal. lia.
  - reflexivity.
Qed.
Lemma fp1_poison : forall `{FpuOps} f t t', scalar t -> scalar t' -> fp1_sem f t' (Poison t) = Ok (Poison t').
Proof. intros F f t t' T T'. unfold fp1_sem. cbn [ty_of]. rewrite T, T', Z.eqb_refl. reflexivity. Qed.
Lemma fp2_scalar : forall `{FpuOps} f t t' x y, scalar t -> scalar t' -> is_fp t = true -> inr (tsize t) x -> inr (tsize t) y ->
  fp2_sem f t' (V t x) (V t y) = Ok (rv_of t' (fpu_op f t t' [x; y])).
Proof.
  intros F f t t' x y T T' P I J. unfold fp2_sem. cbn [ty_of]. rewrite T, T', Z.eqb_refl, ty_eqb_refl, P. cbn [andb].
  unfold vec2. rewrite !lane1 by assumption.
  unfold map2. cbn [combine map fst snd]. unfold fires. destruct (fpu_op f t t' [x; y]) as [v|]; cbn [seq_ires of_lanes rv_of unlanes].
  - do 2 f_equal. lia.
  - reflexivity.
Qed.
Lemma fp2_poison : forall `{FpuOps} f t t' y, scalar t -> scalar t' -> is_fp t = true ->
  fp2_sem f t' (Poison t) (V t y) = Ok (Poison t').
Proof. intros F f t t' y T T' P. unfold fp2_sem. cbn [ty_of]. rewrite T, T', Z.eqb_refl, ty_eqb_refl, P. reflexivity. Qed.

(** What a multiplication followed by a separate addition gives (lifter.cc:282-289). *)
Definition obind (o : option Z) (f : Z -> option Z) : option Z := match o with Some x => f x | None => None end.
Definition unfused `{FpuOps} (np na : bool) (z : fsz) (x y w : Z) : option Z :=
  let t := fty z in
  obind (fpu_op FMul t t [x; y]) (fun p =>
  obind (if np then fpu_op FNeg t t [U (fwid z) p] else Some p) (fun q =>
  fpu_op (if na then FSub else FAdd) t t [U (fwid z) q; w])).

Lemma scalar_f : forall z, scalar (fty z). Proof. destruct z; reflexivity. Qed.
Lemma scalar_i : forall w, scalar (TInt w). Proof. reflexivity. Qed.
Lemma tsize_f : forall z, tsize (fty z) = fwid z. Proof. destruct z; reflexivity. Qed.
Lemma fp_f : forall z, is_fp (fty z) = true. Proof. destruct z; reflexivity. Qed.
Lemma ffac_ty : forall z, facet_type (ffac z) = fty z. Proof. destruct z; reflexivity. Qed.
Lemma ffac_sz : forall z, facet_size (ffac z) = fwid z. Proof. destruct z; reflexivity. Qed.
Lemma fwid_pos : forall z, 0 < fwid z <= 64. Proof. destruct z; cbn [fwid]; lia. Qed.

Section FpA.
Context `{FpuOps}.
Variable c : cenv.
Hypothesis HA : c_arch c = RV64.
Variable cfg : lcfg.
Variable kc : areg -> konst.
Variable i : rvinst.
Variable s : st.
Variable g : gst.
Hypothesis R : rel s g.
Hypothesis PC : g_pc g = addr_pc_base c (r_start i).
Let s0 := at_start i s.
(** The operand as the lifter reads it: the low bits. *)
Definition lo (z : fsz) (n : Z) : Z := trunc (fwid z) (g_f g n).

Lemma lo_inr : forall z n, inr (fwid z) (lo z n). Proof. intros. apply trunc_range. pose proof (fwid_pos z). lia. Qed.
Lemma R0 : rel s0 g. Proof. apply rel_at_start, R. Qed.
Lemma ev_lo : forall z n, ev c s0 (LoadFp n (ffac z)) = Ok (V (fty z) (lo z n)).
Proof.
  intros z n. rewrite (ev_LoadFp c s0 g n (ffac z) R0) by (destruct z; tauto). rewrite ffac_ty, ffac_sz. reflexivity.
Qed.
Lemma ev_1 : forall f t t' e x, ev c s0 e = Ok (V t x) -> scalar t -> scalar t' -> inr (tsize t) x ->
  ev c s0 (E1 (OFp1 f t') e) = Ok (rv_of t' (fpu_op f t t' [x])).
Proof. intros f t t' e x E T T' I. unfold ev in *. cbn [eval]. rewrite E. cbn [bind sem1]. apply fp1_scalar; assumption. Qed.
Lemma ev_2 : forall f z t' a b x y, ev c s0 a = Ok (V (fty z) x) -> ev c s0 b = Ok (V (fty z) y) -> scalar t' ->
  inr (fwid z) x -> inr (fwid z) y -> ev c s0 (E2 (OFp2 f t') a b) = Ok (rv_of t' (fpu_op f (fty z) t' [x; y])).
Proof.
  intros f z t' a b x y E1 E2 T' I J. unfold ev in *. cbn [eval]. rewrite E1, E2. cbn [bind sem2].
  apply fp2_scalar; rewrite ?tsize_f; auto using scalar_f, fp_f.
Qed.
Lemma rv_of_ty : forall t o, ty_of (rv_of t o) = t. Proof. intros t [v|]; reflexivity. Qed.

Lemma ev_fma : forall np na z, ev c s0
    (let t := facet_type (ffac z) in
     let prod := E2 (OFp2 FMul t) (LoadFp (r_rs1 i) (ffac z)) (LoadFp (r_rs2 i) (ffac z)) in
     let op := if np : bool then E1 (OFp1 FNeg t) prod else prod in
     E2 (OFp2 (if na : bool then FSub else FAdd) t) op (LoadFp (r_rs3 i) (ffac z)))
  = Ok (rv_of (fty z) (unfused np na z (lo z (r_rs1 i)) (lo z (r_rs2 i)) (lo z (r_rs3 i)))).
Proof.
  intros np na z. cbv zeta. rewrite ffac_ty.
  pose proof (ev_2 FMul z (fty z) _ _ _ _ (ev_lo z (r_rs1 i)) (ev_lo z (r_rs2 i)) (scalar_f z) (lo_inr _ _) (lo_inr _ _)) as M.
  unfold unfused. set (m := fpu_op FMul (fty z) (fty z) [lo z (r_rs1 i); lo z (r_rs2 i)]) in *.
  set (prod := E2 _ _ _) in *.
  assert (TR : forall p, trunc (fwid z) (U (fwid z) p) = U (fwid z) p).
  { intro p. apply trunc_trunc. pose proof (fwid_pos z). lia. }
  assert (PI : forall p, inr (fwid z) (trunc (fwid z) p)) by (intro p; apply trunc_range; pose proof (fwid_pos z); lia).
  match goal with |- ev c s0 (E2 _ ?X _) = _ => set (opx := X) end.
  assert (O : ev c s0 opx =
              Ok (rv_of (fty z) (obind m (fun p => if np then fpu_op FNeg (fty z) (fty z) [U (fwid z) p] else Some p)))).
  { unfold opx. destruct np.
    - unfold ev in *. cbn [eval]. rewrite M. cbn [bind sem1]. destruct m as [p|]; cbn [rv_of obind].
      + rewrite tsize_f. apply fp1_scalar; auto using scalar_f. rewrite tsize_f. apply PI.
      + apply fp1_poison; apply scalar_f.
    - rewrite M. destruct m; reflexivity. }
  set (q := obind m _) in *.
  assert (L : ev c s0 (E2 (OFp2 (if na then FSub else FAdd) (fty z)) opx (LoadFp (r_rs3 i) (ffac z)))
     = Ok (rv_of (fty z) (obind q (fun q => fpu_op (if na then FSub else FAdd) (fty z) (fty z) [U (fwid z) q; lo z (r_rs3 i)])))).
  { pose proof (ev_lo z (r_rs3 i)) as E3. clearbody opx.
    unfold ev in *. cbn [eval]. rewrite O, E3. cbn [bind sem2].
    destruct q as [q|]; cbn [rv_of obind].
    - rewrite tsize_f. apply fp2_scalar; rewrite ?tsize_f; auto using scalar_f, fp_f, lo_inr.
    - apply fp2_poison; auto using scalar_f, fp_f. }
  rewrite L. unfold q. destruct m as [p|]; reflexivity.
Qed.

(** Result stores. *)
Lemma fp_store : forall e x, lift_mnem c cfg kc i = plain (StoreFp (r_rd i) e) i -> ev c s0 e = Ok x ->
  exists l s', lift_rv64 c cfg kc None i = Some (true, l) /\ run c s l = Ok s' /\ s_reg s' (VEC (r_rd i)) = set_cell 64 x.
Proof.
  intros e x L E. unfold lift_rv64. rewrite L. unfold plain. eexists _, _. split; [reflexivity|]. unfold StoreFp.
  cbn [run run1 app bind]. fold (at_start i s). fold s0. rewrite E. cbn [bind]. split; [reflexivity|].
  cbn [with_pc with_reg s_reg]. unfold upd_reg. rewrite areg_eqb_refl. unfold native_size, native_facet. rewrite HA. reflexivity.
Qed.
Lemma fp_misses : forall e x g', lift_mnem c cfg kc i = plain (StoreFp (r_rd i) e) i -> ev c s0 e = Ok x ->
  set_cell 64 x <> Some (g_f g' (r_rd i)) -> misses c cfg kc i s g'.
Proof.
  intros e x g' L E N. destruct (fp_store e x L E) as (l & s' & L1 & RN & V). exists l, s'. split; [assumption|]. split; [assumption|].
  intros [R1 _]. apply N. rewrite <- V. apply (rel_f _ _ R1).
Qed.
Lemma gp_poison_misses : forall e w g', lift_mnem c cfg kc i = plain (StoreGp (r_rd i) e) i -> ev c s0 e = Ok (Poison (TInt w)) ->
  0 < w <= 64 -> r_rd i <> 0 -> misses c cfg kc i s g'.
Proof.
  intros e w g' L E W D. unfold misses, lift_rv64. rewrite L. unfold plain, StoreGp. destruct (Z.eqb_spec (r_rd i) 0); [contradiction|].
  eexists _, _. split; [reflexivity|]. cbn [run run1 app bind]. fold (at_start i s). fold s0.
  assert (E2 : ev c s0 (eSExt 64 e) = Ok (Poison (TInt 64))).
  { unfold ev, eSExt in *. cbn [eval]. rewrite E. cbn [bind sem1]. unfold cast_sem, cast_fun. cbn [ty_of].
    cbn [ty_eqb]. destruct (w =? 64); [reflexivity|]. cbn [icast]. destruct (w <=? 64) eqn:Q; [reflexivity|lia]. }
  rewrite E2. cbn [bind]. split; [reflexivity|]. intros [R1 _]. pose proof (rel_x _ _ R1 _ n) as Q.
  cbn [with_pc with_reg s_reg set_cell] in Q. unfold upd_reg in Q. rewrite areg_eqb_refl in Q. discriminate Q.
Qed.
Lemma fp_writes : forall e z v, lift_mnem c cfg kc i = plain (StoreFp (r_rd i) e) i ->
  ev c s0 e = Ok (rv_of (fty z) (Some v)) ->
  lifts_to c cfg kc i s (wpc (wf g (r_rd i) (U (fwid z) v)) (g_pc g + r_len i)) (PcConst (r_end i)).
Proof.
  intros e z v L E. cbn [rv_of] in E. rewrite tsize_f in E.
  eapply (fp_goal c HA cfg kc i s g R PC); [exact L|exact E| |reflexivity].
  pose proof (fwid_pos z). eapply inr_le; [|apply trunc_range]; lia.
Qed.

(** ** Conversions to integers *)
(** The rounding the emitted code performs (lifter.cc:203-220): the dynamic mode is
    treated as truncation; nearest-even is not supported. *)
Definition em_of (m : Z) : option rmode :=
  if m =? 1 then Some RTZ else if m =? 2 then Some RDN else if m =? 3 then Some RUP
  else if m =? 4 then Some RMM else if m =? 7 then Some RTZ else None.
Definition fits (w : Z) (sg : bool) (k : Z) : bool := (imin w sg <=? k) && (k <=? imax w sg).
Definition toint_emit (w : Z) (sg : bool) (r : rmode) (z : fsz) (x : Z) : option Z :=
  match fval z x with Some v => if fits w sg (rint r v) then Some (rint r v) else None | None => None end.
Definition ifac (w : Z) : facet := if w =? 32 then I32 else I64.
Lemma toint_lift : forall w sg z, fp_toint (r_mn i) = Some (w, sg, z) -> (w = 32 \/ w = 64) /\
  lift_mnem c cfg kc i = plain_opt (LiftFcvtFToI i (ifac w) (ffac z) (if sg then FToSI else FToUI)) i.
Proof. intros w sg z E. unfold lift_mnem. destruct (r_mn i); try discriminate E; injection E as <- <- <-; (split; [tauto|reflexivity]). Qed.
Lemma toint_ev : forall w sg z r, fpu_conv -> fp_toint (r_mn i) = Some (w, sg, z) -> em_of (r_misc i) = Some r ->
  exists e, lift_mnem c cfg kc i = plain (StoreGp (r_rd i) e) i /\
            ev c s0 e = Ok (rv_of (TInt w) (toint_emit w sg r z (lo z (r_rs1 i)))).
Proof.
  intros w sg z r CV E M. destruct (toint_lift w sg z E) as [W L]. rewrite L. unfold LiftFcvtFToI.
  assert (TW : facet_type (ifac w) = TInt w) by (destruct W as [-> | ->]; reflexivity). rewrite TW, ffac_ty.
  pose proof (ev_lo z (r_rs1 i)) as EL. pose proof (lo_inr z (r_rs1 i)) as I.
  assert (ONE : forall y e, inr (fwid z) y -> ev c s0 e = Ok (V (fty z) y) ->
     ev c s0 (E1 (OFp1 (if sg then FToSI else FToUI) (TInt w)) e) = Ok (rv_of (TInt w) (toint_emit w sg RTZ z y))).
  { intros y e J E0. rewrite (ev_1 _ (fty z) (TInt w) e y E0 (scalar_f z) (scalar_i w)) by (rewrite tsize_f; exact J).
    rewrite (cv_int CV w sg z y J). reflexivity. }
  assert (TWO : forall op, In (op, r) [(FFloor, RDN); (FCeil, RUP); (FRound, RMM)] ->
     ev c s0 (E1 (OFp1 (if sg then FToSI else FToUI) (TInt w)) (E1 (OFp1 op (fty z)) (LoadFp (r_rs1 i) (ffac z))))
     = Ok (rv_of (TInt w) (toint_emit w sg r z (lo z (r_rs1 i))))).
  { intros op O. destruct (cv_round CV op r z _ O I) as (y & OY & IY & VY).
    rewrite (ONE y).
    - unfold toint_emit. destruct (fval z (lo z (r_rs1 i))) as [v|].
      + destruct VY as (v' & -> & RV). rewrite RV. reflexivity.
      + rewrite VY. reflexivity.
    - exact IY.
    - rewrite (ev_1 op (fty z) (fty z) _ _ EL (scalar_f z) (scalar_f z)) by (rewrite tsize_f; exact I).
      rewrite OY. cbn [rv_of]. rewrite tsize_f, trunc_small by exact IY. reflexivity. }
  unfold em_of in M.
  destruct (r_misc i =? 1). { injection M as <-. eexists. split; [reflexivity|]. apply ONE; assumption. }
  destruct (r_misc i =? 2). { injection M as <-. eexists. split; [reflexivity|]. apply TWO. cbn. tauto. }
  destruct (r_misc i =? 3). { injection M as <-. eexists. split; [reflexivity|]. apply TWO. cbn. tauto. }
  destruct (r_misc i =? 4). { injection M as <-. eexists. split; [reflexivity|]. apply TWO. cbn. tauto. }
  destruct (r_misc i =? 7). { injection M as <-. eexists. split; [reflexivity|]. apply ONE; assumption. }
  discriminate M.
Qed.
(** In range: the value rounded the emitted way. *)
Lemma toint_writes : forall w sg z r k, fpu_conv -> fp_toint (r_mn i) = Some (w, sg, z) -> em_of (r_misc i) = Some r ->
  toint_emit w sg r z (lo z (r_rs1 i)) = Some k ->
  lifts_to c cfg kc i s (wpc (wx g (r_rd i) (S_ w k)) (g_pc g + r_len i)) (PcConst (r_end i)).
Proof.
  intros w sg z r k CV E M K. destruct (toint_ev w sg z r CV E M) as (e & L & V). rewrite K in V. cbn [rv_of tsize] in V.
  destruct (toint_lift w sg z E) as [W _].
  apply (plain_gp c cfg kc i s g e w (trunc w k) (S_ w k) L R V); [lia|apply trunc_range; lia|reflexivity|exact PC].
Qed.
(** Out of range, NaN, infinite: poison. *)
Lemma toint_poison : forall w sg z r g', fpu_conv -> fp_toint (r_mn i) = Some (w, sg, z) -> em_of (r_misc i) = Some r ->
  toint_emit w sg r z (lo z (r_rs1 i)) = None -> r_rd i <> 0 -> misses c cfg kc i s g'.
Proof.
  intros w sg z r g' CV E M K D. destruct (toint_ev w sg z r CV E M) as (e & L & V). rewrite K in V. cbn [rv_of] in V.
  destruct (toint_lift w sg z E) as [W _]. apply (gp_poison_misses e w g' L V); [lia|exact D].
Qed.
Lemma toint_clip : forall w sg r z x k, toint_emit w sg r z x = Some k -> isa_toint w sg r z x = k.
Proof.
  intros w sg r z x k E. unfold toint_emit, isa_toint, fits in *. destruct (fval z x) as [v|]; [|discriminate].
  destruct (_ && _) eqn:Q; [|discriminate]. injection E as <-. apply andb_prop in Q. lia.
Qed.

(** ** Where the lifter is not known to deviate *)
Definition fpa_pre (i : rvinst) (g : gst) : Prop :=
  let b1 z := boxed z (g_f g (r_rs1 i)) in
  let b2 z := boxed z (g_f g (r_rs2 i)) in
  match fp_arith (r_mn i) with Some (_, z) => z = FD /\ r_misc i = 7 | None =>
  match fp_minmax (r_mn i) with Some (_, z) => z = FD | None =>
  match fp_sqrt (r_mn i) with Some z => z = FD | None =>
  match fp_fma (r_mn i) with
  | Some (np, na, z) => z = FD /\
      fpu_op FFma (fty z) (fty z) [fneg_if np z (rf g z (r_rs1 i)); rf g z (r_rs2 i); fneg_if na z (rf g z (r_rs3 i))]
      = unfused np na z (rf g z (r_rs1 i)) (rf g z (r_rs2 i)) (rf g z (r_rs3 i))
  | None =>
  match fp_cmp (r_mn i) with Some (_, z) => b1 z /\ b2 z | None =>
  match fp_fromint (r_mn i) with Some (_, _, z) => z = FD | None =>
  match fp_toint (r_mn i) with
  | Some (w, sg, z) => fpu_conv /\ b1 z /\
      exists r v, em_of (r_misc i) = Some r /\ fval z (rf g z (r_rs1 i)) = Some v /\ imin w sg <= rint r v <= imax w sg /\
        (r_misc i = 7 -> rint RTZ v = rint RNE v)
  | None => match r_mn i with R_FCVTDS => b1 FS | _ => False end
  end end end end end end end.

Lemma lo_rf : forall z n, boxed z (g_f g n) -> lo z n = rf g z n.
Proof. intros z n B. unfold lo. apply boxed_low; [exact B|]. apply (rel_fr _ _ R). Qed.
Lemma lo_d : forall n, lo FD n = rf g FD n. Proof. intro n. apply lo_rf. exact I. Qed.

Lemma arith_lift : forall op z, fp_arith (r_mn i) = Some (op, z) -> lift_mnem c cfg kc i = plain_opt (LiftFpArith i op (ffac z)) i.
Proof. intros op z E. unfold lift_mnem. destruct (r_mn i); try discriminate E; injection E as <- <-; reflexivity. Qed.
Lemma minmax_lift : forall op z, fp_minmax (r_mn i) = Some (op, z) -> lift_mnem c cfg kc i = plain (LiftFminmax i op (ffac z)) i.
Proof. intros op z E. unfold lift_mnem. destruct (r_mn i); try discriminate E; injection E as <- <-; reflexivity. Qed.
Lemma sqrt_lift : forall z, fp_sqrt (r_mn i) = Some z ->
  lift_mnem c cfg kc i = plain (StoreFp (r_rd i) (E1 (OFp1 FSqrt (fty z)) (LoadFp (r_rs1 i) (ffac z)))) i.
Proof. intros z E. unfold lift_mnem. destruct (r_mn i); try discriminate E; injection E as <-; reflexivity. Qed.
Lemma fma_lift : forall np na z, fp_fma (r_mn i) = Some (np, na, z) -> lift_mnem c cfg kc i = plain (LiftFmadd i na np (ffac z)) i.
Proof. intros np na z E. unfold lift_mnem. destruct (r_mn i); try discriminate E; injection E as <- <- <-; reflexivity. Qed.
Lemma cmp_lift : forall op z, fp_cmp (r_mn i) = Some (op, z) -> lift_mnem c cfg kc i =
  plain (StoreGp (r_rd i) (eZExt 64 (E2 (OFp2 op (TInt 1)) (LoadFp (r_rs1 i) (ffac z)) (LoadFp (r_rs2 i) (ffac z))))) i.
Proof. intros op z E. unfold lift_mnem. destruct (r_mn i); try discriminate E; injection E as <- <-; reflexivity. Qed.
Lemma fromint_lift : forall w sg z, fp_fromint (r_mn i) = Some (w, sg, z) -> (w = 32 \/ w = 64) /\
  lift_mnem c cfg kc i = plain (LiftFcvtIToF i (ffac z) (ifac w) (if sg then FSIToFP else FUIToFP)) i.
Proof. intros w sg z E. unfold lift_mnem. destruct (r_mn i); try discriminate E; injection E as <- <- <-; (split; [tauto|reflexivity]). Qed.
Lemma fromint_ev : forall w cast z, w = 32 \/ w = 64 ->
  ev c s0 (E1 (OFp1 cast (facet_type (ffac z))) (LoadGp (r_rs1 i) (ifac w))) = Ok (rv_of (fty z) (fpu_op cast (TInt w) (fty z) [U w (rx g (r_rs1 i))])).
Proof.
  intros w cast z W. rewrite ffac_ty.
  assert (EL : ev c s0 (LoadGp (r_rs1 i) (ifac w)) = Ok (V (TInt w) (U w (rx g (r_rs1 i))))).
  { destruct W as [-> | ->]; [apply (val_LoadGp32 c s0 g _ R0)|].
    pose proof (val_LoadGp64 c s0 g (r_rs1 i) R0) as Q. unfold val in Q. cbn [ifac]. change (ifac 64) with I64. rewrite Q.
    change U with trunc. rewrite trunc_small; [reflexivity|]. apply (rx_inr s g _ R). }
  apply (ev_1 cast (TInt w) (fty z) _ _ EL (scalar_i w) (scalar_f z)). apply trunc_range. cbn [tsize]. lia.
Qed.

(** Instructions writing a floating-point register: what is emitted. *)
Definition fp_emit : option (fsz * option Z) :=
  let x z := lo z (r_rs1 i) in let y z := lo z (r_rs2 i) in
  match fp_arith (r_mn i) with
  | Some (op, z) => if r_misc i =? 7 then Some (z, fpu_op op (fty z) (fty z) [x z; y z]) else None
  | None => match fp_minmax (r_mn i) with
  | Some (op, z) => Some (z, fpu_op op (fty z) (fty z) [x z; y z])
  | None => match fp_sqrt (r_mn i) with
  | Some z => Some (z, fpu_op FSqrt (fty z) (fty z) [x z])
  | None => match fp_fma (r_mn i) with
  | Some (np, na, z) => Some (z, unfused np na z (x z) (y z) (lo z (r_rs3 i)))
  | None => match fp_fromint (r_mn i) with
  | Some (w, sg, z) => Some (z, fpu_op (if sg then FSIToFP else FUIToFP) (TInt w) (fty z) [U w (rx g (r_rs1 i))])
  | None => match r_mn i with
            | R_FCVTSD => Some (FS, fpu_op FTrunc TF64 TF32 [x FD])
            | R_FCVTDS => Some (FD, fpu_op FExt TF32 TF64 [x FS])
            | _ => None
            end end end end end end.
Lemma fp_emit_ev : forall z o, fp_emit = Some (z, o) ->
  exists e, lift_mnem c cfg kc i = plain (StoreFp (r_rd i) e) i /\ ev c s0 e = Ok (rv_of (fty z) o).
Proof.
  intros z o E. unfold fp_emit in E.
  destruct (fp_arith (r_mn i)) as [[op z1]|] eqn:K1.
  { destruct (r_misc i =? 7) eqn:M; [|discriminate]. injection E as <- <-. rewrite (arith_lift op z1 K1). unfold LiftFpArith. rewrite M.
    eexists. split; [reflexivity|]. rewrite ffac_ty. apply ev_2; auto using ev_lo, scalar_f, lo_inr. }
  destruct (fp_minmax (r_mn i)) as [[op z1]|] eqn:K2.
  { injection E as <- <-. rewrite (minmax_lift op z1 K2). eexists. split; [reflexivity|]. rewrite ffac_ty.
    apply ev_2; auto using ev_lo, scalar_f, lo_inr. }
  destruct (fp_sqrt (r_mn i)) as [z1|] eqn:K3.
  { injection E as <- <-. rewrite (sqrt_lift z1 K3). eexists. split; [reflexivity|].
    apply (ev_1 _ (fty z1)); rewrite ?tsize_f; auto using ev_lo, scalar_f, lo_inr. }
  destruct (fp_fma (r_mn i)) as [[[np na] z1]|] eqn:K4.
  { injection E as <- <-. rewrite (fma_lift np na z1 K4). eexists. split; [reflexivity|]. apply ev_fma. }
  destruct (fp_fromint (r_mn i)) as [[[w sg] z1]|] eqn:K5.
  { injection E as <- <-. destruct (fromint_lift w sg z1 K5) as [W L]. rewrite L. eexists. split; [reflexivity|]. apply fromint_ev, W. }
  clear K1 K2 K3 K4 K5. unfold lift_mnem. destruct (r_mn i); try discriminate E; injection E as <- <-; (eexists; split; [reflexivity|]).
  - apply (ev_1 FTrunc TF64 TF32 _ _ (ev_lo FD _)); try reflexivity. apply (lo_inr FD).
  - apply (ev_1 FExt TF32 TF64 _ _ (ev_lo FS _)); try reflexivity. apply (lo_inr FS).
Qed.

Lemma fp_emit_writes : forall z v, fp_emit = Some (z, Some v) ->
  lifts_to c cfg kc i s (wpc (wf g (r_rd i) (U (fwid z) v)) (g_pc g + r_len i)) (PcConst (r_end i)).
Proof. intros z v E. destruct (fp_emit_ev z _ E) as (e & L & V). apply (fp_writes e z v L V). Qed.

Lemma some_inj : forall (x y : gst), Some x = Some y -> y = x. Proof. intros. congruence. Qed.

Lemma fpa_correct : forall g', isa_fpa i g = Some g' -> fpa_pre i g -> lifts_to c cfg kc i s g' (PcConst (r_end i)).
Proof.
  intros g' E P. unfold isa_fpa, fpa_pre in *. cbv zeta in *. pose proof fp_emit_writes as FW. unfold fp_emit in FW. cbv zeta in FW.
  destruct (fp_arith (r_mn i)) as [[op z]|] eqn:K1.
  { destruct P as [-> M]. destruct (is_rne _); [|discriminate]. destruct (fpu_op _ _ _ _) as [v|] eqn:Q; [|discriminate]. rewrite (some_inj _ _ E).
    apply (FW FD v). rewrite M, !lo_d. change (7 =? 7) with true. cbv iota. rewrite Q. reflexivity. }
  destruct (fp_minmax (r_mn i)) as [[op z]|] eqn:K2.
  { subst z. destruct (fpu_op _ _ _ _) as [v|] eqn:Q; [|discriminate]. rewrite (some_inj _ _ E). apply (FW FD v). rewrite !lo_d, Q. reflexivity. }
  destruct (fp_sqrt (r_mn i)) as [z|] eqn:K3.
  { subst z. destruct (is_rne _); [|discriminate]. destruct (fpu_op _ _ _ _) as [v|] eqn:Q; [|discriminate]. rewrite (some_inj _ _ E).
    apply (FW FD v). rewrite lo_d, Q. reflexivity. }
  destruct (fp_fma (r_mn i)) as [[[np na] z]|] eqn:K4.
  { destruct P as [-> U]. destruct (is_rne _); [|discriminate]. rewrite U in E. destruct (unfused _ _ _ _ _ _) as [v|] eqn:Q; [|discriminate]. rewrite (some_inj _ _ E).
    apply (FW FD v). rewrite !lo_d, Q. reflexivity. }
  destruct (fp_cmp (r_mn i)) as [[op z]|] eqn:K5.
  { destruct P as [B1 B2]. destruct (fpu_op _ _ _ _) as [v|] eqn:Q; [|discriminate]. rewrite (some_inj _ _ E). clear FW.
    rewrite <- (lo_rf z _ B1), <- (lo_rf z _ B2) in Q.
    pose proof (ev_2 op z (TInt 1) _ _ _ _ (ev_lo z (r_rs1 i)) (ev_lo z (r_rs2 i)) (scalar_i 1) (lo_inr _ _) (lo_inr _ _)) as V.
    rewrite Q in V. cbn [rv_of tsize] in V.
    eapply plain_gp64; [apply (cmp_lift op z K5)|exact R|apply val_zext with (w := 1); [exact V|lia]| |exact PC].
    change U with trunc. symmetry. apply trunc_small. eapply inr_le; [|apply trunc_range]; lia. }
  destruct (fp_fromint (r_mn i)) as [[[w sg] z]|] eqn:K6.
  { subst z. destruct (is_rne _); [|discriminate]. destruct (fpu_op _ _ _ _) as [v|] eqn:Q; [|discriminate]. rewrite (some_inj _ _ E).
    apply (FW FD v). reflexivity. }
  destruct (fp_toint (r_mn i)) as [[[w sg] z]|] eqn:K7.
  { clear FW. destruct P as (CV & B1 & r & v & EM & FV & RG & DY).
    assert (TE : toint_emit w sg r z (lo z (r_rs1 i)) = Some (rint r v)).
    { unfold toint_emit, fits. rewrite (lo_rf z _ B1), FV. replace ((imin w sg <=? rint r v) && (rint r v <=? imax w sg)) with true by lia. reflexivity. }
    assert (RR : exists r', rm_of (r_misc i) = Some r' /\ rint r' v = rint r v).
    { unfold em_of, rm_of in *. revert EM; repeat match goal with |- context [?a =? ?b] => destruct (Z.eqb_spec a b) end; intro EM; try lia;
      try discriminate EM; injection EM as <-; eexists; (split; [reflexivity|]); try reflexivity. symmetry. auto. }
    destruct RR as (r' & RM & RE). rewrite RM in E. rewrite (some_inj _ _ E).
    replace (isa_toint w sg r' z (rf g z (r_rs1 i))) with (rint r v).
    - apply (toint_writes w sg z r _ CV K7 EM TE).
    - unfold isa_toint. rewrite FV, RE. lia. }
  destruct (r_mn i) eqn:MN; try contradiction.
  cbn [fp_arith fp_minmax fp_sqrt fp_fma fp_fromint] in FW.
  destruct (fpu_op _ _ _ _) as [v|] eqn:Q; [|discriminate]. rewrite (some_inj _ _ E). apply (FW FD v).
  rewrite (lo_rf FS _ P), Q. reflexivity.
Qed.

(** ** Deviations *)
(** What the ISA leaves in the destination of an instruction writing a floating-point register. *)
Lemma isa_single : forall g' o, isa_fpa i g = Some g' -> fp_emit = Some (FS, o) -> exists v, g_f g' (r_rd i) = nanbox v.
Proof.
  intros g' o E F. unfold isa_fpa, fp_emit in *. cbv zeta in *.
  assert (W : forall op s t l, match fpu_op op s t l with Some v => Some (wpc (wfz g FS (r_rd i) v) (g_pc g + r_len i)) | None => None end = Some g' ->
     exists v, g_f g' (r_rd i) = nanbox v).
  { intros op s1 t l Q. destruct (fpu_op op s1 t l) as [v|]; [|discriminate]. rewrite (some_inj _ _ Q). exists v. cbn [wpc g_f wfz wf]. rewrite Z.eqb_refl. reflexivity. }
  destruct (fp_arith (r_mn i)) as [[op z]|].
  { destruct (r_misc i =? 7); [|discriminate]. injection F as -> _. destruct (is_rne _); [|discriminate]. exact (W _ _ _ _ E). }
  destruct (fp_minmax (r_mn i)) as [[op z]|]. { injection F as -> _. exact (W _ _ _ _ E). }
  destruct (fp_sqrt (r_mn i)) as [z|]. { injection F as -> _. destruct (is_rne _); [|discriminate]. exact (W _ _ _ _ E). }
  destruct (fp_fma (r_mn i)) as [[[np na] z]|]. { injection F as -> _. destruct (is_rne _); [|discriminate]. exact (W _ _ _ _ E). }
  destruct (fp_fromint (r_mn i)) as [[[w sg] z]|] eqn:K.
  { injection F as -> _. replace (fp_cmp (r_mn i)) with (@None (fpname * fsz)) in E by (destruct (r_mn i); try discriminate K; reflexivity).
    destruct (is_rne _); [|discriminate]. exact (W _ _ _ _ E). }
  destruct (r_mn i); try discriminate F; cbn [fp_cmp fp_toint] in E.
  destruct (is_rne _); [|discriminate]. exact (W _ _ _ _ E).
Qed.
Lemma set_small : forall w o z, set_cell 64 (rv_of w o) = Some z -> tsize w = 32 -> z < 2^32.
Proof.
  intros w [v|] z E T; cbn [rv_of set_cell] in E; [|discriminate]. injection E as <-. rewrite T.
  pose proof (trunc_range 32 v ltac:(lia)) as I. rewrite trunc_small by (eapply inr_le; [|exact I]; lia). apply I.
Qed.
Lemma single_misses : forall g' o, isa_fpa i g = Some g' -> fp_emit = Some (FS, o) -> misses c cfg kc i s g'.
Proof.
  intros g' o E F. destruct (isa_single g' o E F) as [v V]. destruct (fp_emit_ev FS o F) as (e & L & EV).
  apply (fp_misses e _ g' L EV). intro Q. apply set_small in Q; [|reflexivity]. rewrite V in Q. unfold nanbox in Q. change U with trunc in Q.
  pose proof (trunc_range 32 v ltac:(lia)) as [? ?]. lia.
Qed.
Lemma fma_misses : forall g' np na v, fp_fma (r_mn i) = Some (np, na, FD) -> isa_fpa i g = Some g' ->
  fpu_op FFma TF64 TF64 [fneg_if np FD (g_f g (r_rs1 i)); g_f g (r_rs2 i); fneg_if na FD (g_f g (r_rs3 i))] = Some v ->
  match unfused np na FD (g_f g (r_rs1 i)) (g_f g (r_rs2 i)) (g_f g (r_rs3 i)) with Some u => U 64 u <> U 64 v | None => True end ->
  misses c cfg kc i s g'.
Proof.
  intros g' np na v K E V D.
  assert (K0 : fp_arith (r_mn i) = None /\ fp_minmax (r_mn i) = None /\ fp_sqrt (r_mn i) = None) by (destruct (r_mn i); try discriminate K; auto).
  destruct K0 as (K1 & K2 & K3).
  assert (F : fp_emit = Some (FD, unfused np na FD (g_f g (r_rs1 i)) (g_f g (r_rs2 i)) (g_f g (r_rs3 i)))).
  { unfold fp_emit. rewrite K1, K2, K3, K, !lo_d. reflexivity. }
  destruct (fp_emit_ev FD _ F) as (e & L & EV). apply (fp_misses e _ g' L EV).
  unfold isa_fpa in E. rewrite K1, K2, K3, K in E. cbn [rf fty] in E. rewrite V in E. destruct (is_rne _); [|discriminate].
  rewrite (some_inj _ _ E). cbn [wpc g_f wfz wf]. rewrite Z.eqb_refl.
  destruct (unfused _ _ _ _ _ _) as [u|]; cbn [rv_of set_cell fty tsize]; [|discriminate].
  rewrite trunc_trunc by lia. intro Q. apply D. injection Q as Q. exact Q.
Qed.
(** The dynamic rounding mode truncates. *)
Lemma dyn_misses : forall g' w sg z v, fpu_conv -> fp_toint (r_mn i) = Some (w, sg, z) -> isa_fpa i g = Some g' -> r_misc i = 7 ->
  boxed z (g_f g (r_rs1 i)) -> fval z (rf g z (r_rs1 i)) = Some v -> rint RTZ v <> rint RNE v -> r_rd i <> 0 ->
  imin w sg <= rint RNE v <= imax w sg -> misses c cfg kc i s g'.
Proof.
  intros g' w sg z v CV K E M B FV NE D RG.
  assert (EM : em_of (r_misc i) = Some RTZ) by (rewrite M; reflexivity).
  destruct (toint_emit w sg RTZ z (lo z (r_rs1 i))) as [k|] eqn:T; [|eapply toint_poison; eassumption].
  pose proof (toint_writes w sg z RTZ k CV K EM T) as L. eapply lifts_to_misses; [exact L|].
  unfold toint_emit in T. rewrite (lo_rf z _ B), FV in T. destruct (fits w sg (rint RTZ v)) eqn:FT; [|discriminate]. injection T as <-.
  assert (G : g' = wpc (wx g (r_rd i) (S_ w (rint RNE v))) (g_pc g + r_len i)).
  { unfold isa_fpa in E. cbv zeta in E.
    assert (K0 : fp_arith (r_mn i) = None /\ fp_minmax (r_mn i) = None /\ fp_sqrt (r_mn i) = None /\ fp_fma (r_mn i) = None /\ fp_cmp (r_mn i) = None /\ fp_fromint (r_mn i) = None)
      by (destruct (r_mn i); try discriminate K; repeat split).
    destruct K0 as (K1 & K2 & K3 & K4 & K5 & K6). rewrite K1, K2, K3, K4, K5, K6, K, M in E. change (rm_of 7) with (Some RNE) in E.
    rewrite (some_inj _ _ E). unfold isa_toint. rewrite FV. do 3 f_equal. lia. }
  rewrite G. apply wx_differs; [exact D|]. destruct (toint_lift w sg z K) as [W _].
  unfold fits in FT. apply andb_prop in FT. destruct FT as [F1 F2]. clear - NE RG F1 F2 W.
  change U with trunc. intro Q. apply NE.
  assert (Q2 : trunc w (rint RTZ v) = trunc w (rint RNE v)).
  { rewrite !S_sgn in Q. apply (f_equal (trunc w)) in Q. rewrite !trunc_trunc_le in Q by lia.
    rewrite <- (trunc_sgn w (trunc w (rint RTZ v))), <- (trunc_sgn w (trunc w (rint RNE v))); [exact Q|..]. all: try lia. all: apply trunc_range; lia. }
  unfold trunc in Q2. set (a := rint RTZ v) in *. set (b := rint RNE v) in *. clearbody a b.
  destruct W as [-> | ->], sg; unfold imin, imax in *;
  [change (2^(32-1)) with 2147483648 in *|change (2^(32-1)) with 2147483648 in *|change (2^(64-1)) with 9223372036854775808 in *|change (2^(64-1)) with 9223372036854775808 in *];
  change (2^32) with 4294967296 in *; change (2^64) with 18446744073709551616 in *; lia.
Qed.
(** fcsr accesses (lifter.cc, case FRV_CSRRW to FRV_CSRRCI). *)
Lemma csr_writes : is_csr (r_mn i) = true -> 1 <= r_imm i <= 3 ->
  lifts_to c cfg kc i s (wpc (wx g (r_rd i) 0) (g_pc g + r_len i)) (PcConst (r_end i)).
Proof.
  intros K I. apply (plain_gp c cfg kc i s g (cI 32 0) 32 0 0); [|exact R|reflexivity|lia|split; lia|reflexivity|exact PC].
  unfold lift_mnem. assert (Q : (r_imm i =? 1) || (r_imm i =? 2) || (r_imm i =? 3) = true) by lia.
  cbv zeta. rewrite Q. destruct (r_mn i); try discriminate K; reflexivity.
Qed.
End FpA.

(** Only the dynamic rounding mode is accepted for arithmetic; nearest-even is not for
    conversions to integers: the assertion fails. *)
Lemma rm_asserts : forall `{FpuOps} c cfg kc i, fp_arith (r_mn i) <> None /\ r_misc i <> 7 \/ fp_toint (r_mn i) <> None /\ em_of (r_misc i) = None ->
  lift_rv64 c cfg kc None i = None.
Proof.
  intros F c cfg kc i [[K M]|[K M]]; unfold lift_rv64.
  - destruct (fp_arith (r_mn i)) as [[op z]|] eqn:Q; [|congruence]. rewrite (arith_lift c cfg kc i op z Q). unfold LiftFpArith.
    destruct (Z.eqb_spec (r_misc i) 7); [contradiction|reflexivity].
  - destruct (fp_toint (r_mn i)) as [[[w sg] z]|] eqn:Q; [|congruence]. destruct (toint_lift c cfg kc i w sg z Q) as [_ ->]. unfold LiftFcvtFToI.
    unfold em_of in M. repeat match goal with |- context [if ?b then _ else _] => destruct b; [discriminate M|] end. reflexivity.
Qed.
(** Elsewhere a static rounding mode has no influence. *)
Definition with_rm (i : rvinst) (m : Z) : rvinst :=
  RvInst (r_mn i) (r_rd i) (r_rs1 i) (r_rs2 i) (r_rs3 i) (r_imm i) m (r_start i) (r_len i).
Lemma rm_ignored : forall c cfg kc i m, fp_sqrt (r_mn i) <> None \/ fp_fma (r_mn i) <> None \/ fp_fromint (r_mn i) <> None \/ r_mn i = R_FCVTSD ->
  lift_rv64 c cfg kc None (with_rm i m) = lift_rv64 c cfg kc None i.
Proof.
  intros c cfg kc i m K. unfold lift_rv64. replace (lift_mnem c cfg kc (with_rm i m)) with (lift_mnem c cfg kc i); [reflexivity|].
  unfold lift_mnem. cbn [with_rm r_mn r_imm].
  destruct (r_mn i); try reflexivity; exfalso; cbn in K; destruct K as [K|[K|[K|K]]]; congruence.
Qed.

(** ** All instructions *)
(** One step of any instruction of Rv64Spec or Rv64FpSpec, and where the lifter is not
    known to deviate. *)
Definition isa_all `{FpuOps} (i : rvinst) (g : gst) : option gst :=
  match isa_step i g with Some g' => Some g' | None => isa_fpa i g end.
Definition all_pre `{FpuOps} (cfg : lcfg) (i : rvinst) (g : gst) : Prop :=
  match isa_step i g with Some _ => step_pre cfg i g | None => fpa_pre i g end.
Lemma all_correct : forall `{FpuOps} c cfg kc i s g g', c_arch c = RV64 -> gbase_ok c -> rel s g -> kc_sound kc s ->
  g_pc g = addr_pc_base c (r_start i) -> isa_all i g = Some g' -> all_pre cfg i g -> exists p, lifts_to c cfg kc i s g' p.
Proof.
  intros F c cfg kc i s g g' HA GB R KC PC E P. unfold isa_all, all_pre in *. destruct (isa_step i g) as [g1|] eqn:S.
  - injection E as <-. eapply step_correct; eassumption.
  - eexists. eapply fpa_correct; eassumption.
Qed.
Lemma fpa_next : forall `{FpuOps} i g g', isa_fpa i g = Some g' -> g_pc g' = U 64 (g_pc g + r_len i).
Proof.
  intros F i g g' E. unfold isa_fpa in E. cbv zeta in E.
  assert (W : forall x, Some (wpc x (g_pc g + r_len i)) = Some g' -> g_pc g' = U 64 (g_pc g + r_len i)).
  { intros x Q. rewrite (some_inj _ _ Q). reflexivity. }
  repeat match type of E with
  | match ?x with Some _ => _ | None => _ end = _ => destruct x as [[[? ?] ?]|] || destruct x as [[? ?]|] || destruct x as [?|]
  | (if ?b then _ else _) = _ => destruct b
  end; try discriminate E; try exact (W _ E).
  destruct (r_mn i); try discriminate E.
  - destruct (is_rne _); [|discriminate E]. destruct (fpu_op _ _ _ _); [exact (W _ E)|discriminate E].
  - destruct (fpu_op _ _ _ _); [exact (W _ E)|discriminate E].
Qed.
