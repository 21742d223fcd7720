(** When the AArch64 floating-point code computes what the architecture specifies. *)

From Coq Require Import ZArith Lia ZifyBool List Bool.
From Verif Require Import Bits IR Facet Dsl Rv64Spec Rv64Sim Rv64Arith Rv64FpSpec Rv64FpEx X86Spec X86Arith X86Sse X86SseSpec X86SseVec X86SseOps X86SseOps4.
From Verif Require Import A64Base A64Simd A64SimdFp A64 A64Spec A64Arith A64Sim A64Dp A64Mem A64Sys A64SimdSpec A64SimdFpSpec A64SimdVec A64SimdEval A64SimdInt A64SimdFpOk.
Import A64Simd(fop, sop). Import A64Base(fsz).
Import ListNotations.
Open Scope Z_scope.
Ltac Zify.zify_post_hook ::= Z.div_mod_to_equations.

(** Two numbers that are not zeros of different sign. *)
Definition num2 (z : fmt) (x y : Z) : Prop := frel z x y <> None /\ (frel z x y = Some Eq -> x = y).
(** A value which, scaled by 2^fb and rounded, fits the integer type. *)
Definition fits (w : Z) (sg : bool) (m : frm) (fb : Z) (z : fmt) (x : Z) : Prop :=
  match fval z x, frm_mode m with Some (n, e), Some r => imin w sg <= rint r (n, e + fb) <= imax w sg | _, _ => False end.
(** Fixed-point conversions: the operand is not subnormal. *)
Definition scales (fb : Z) (z : fmt) (x : Z) : Prop := fb = 0 \/ 0 < fb <= 64 /\ (fpabs z x = 0 \/ fexp z x <> 0).

(** Lists of lanes. *)
Lemma ovec_ext : forall w F F' n, (forall k, 0 <= k < Z.of_nat n -> F k = F' k) -> ovec w F n = ovec w F' n.
Proof.
  induction n as [|n IH]; intros E; [reflexivity|]. cbn [ovec]. rewrite IH by (intros; apply E; lia). rewrite (E (Z.of_nat n)) by lia. reflexivity.
Qed.
Lemma ovec_pure : forall w F f n, 0 <= n -> (forall k, 0 <= k < n -> F k = Some (U w (f k))) -> ovec w F (Z.to_nat n) = Some (out w n f).
Proof.
  intros w F f n N E. unfold out. rewrite (ovec_ext w F (fun k => Some (U w (f k)))) by (intros; apply E; lia). clear.
  induction (Z.to_nat n) as [|m IH]; [reflexivity|]. cbn [ovec vec]. rewrite IH. reflexivity.
Qed.
Lemma round_mode : forall m r, frm_mode m = Some r -> round_op m = Some (to_integral r).
Proof. intros [] r E; try discriminate; injection E as <-; reflexivity. Qed.
Lemma Ln_fi : forall z q k, inr (fwid z) (Ln (fwid z) q k).
Proof. intros z q k. apply Ln_inr. pose proof (fwid_pos z). lia. Qed.
Lemma U_fi : forall z q, inr (fwid z) (U (fwid z) q).
Proof. intros z q. apply trunc_inr. pose proof (fwid_pos z). lia. Qed.

(** *** Maximum and minimum *)
Lemma frel_key : forall z x y, frel z x y <> None -> frel z x y = Some (fkey z x ?= fkey z y) /\ fnan z x = false /\ fnan z y = false.
Proof. intros z x y E. unfold frel in *. destruct (fnan z x), (fnan z y); cbn [orb] in *; try congruence. auto. Qed.
Lemma num2_refl : forall z x, frel z x x <> None -> num2 z x x.
Proof. intros z x E. split; auto. Qed.
Lemma frel_lt : forall z x y, r_lt (Some (fkey z x ?= fkey z y)) = (fkey z x <? fkey z y).
Proof. intros. unfold r_lt, Z.ltb. destruct (_ ?= _); reflexivity. Qed.
Lemma frel_gt : forall z x y, r_gt (Some (fkey z x ?= fkey z y)) = (fkey z y <? fkey z x).
Proof. intros. rewrite Z.ltb_antisym. unfold r_gt, Z.leb. destruct (_ ?= _); reflexivity. Qed.
Lemma tkey_lt : forall z x y, (fkey z x < fkey z y -> ftkey z x < ftkey z y).
Proof.
  intros z x y. unfold fkey, ftkey. pose proof (fwid_pos z).
  pose proof (Z.mod_pos_bound x (2 ^ (fwid z - 1)) ltac:(apply pow2_pos; lia)). pose proof (Z.mod_pos_bound y (2 ^ (fwid z - 1)) ltac:(apply pow2_pos; lia)).
  destruct (signof (fwid z) x =? 0), (signof (fwid z) y =? 0); cbv zeta; lia.
Qed.
Definition mx (z : fmt) (x y : Z) : Z := if fkey z x <? fkey z y then y else x.
Definition mn (z : fmt) (x y : Z) : Z := if fkey z y <? fkey z x then y else x.
Lemma fpmax_mx : forall z x y, num2 z x y -> fpmax z x y = mx z x y.
Proof.
  intros z x y [N E]. destruct (frel_key z x y N) as (F & X & Y). unfold fpmax, mx. rewrite X, Y. cbn [orb].
  rewrite F in E. pose proof (tkey_lt z x y). pose proof (tkey_lt z y x).
  destruct (Z.ltb_spec (fkey z x) (fkey z y)), (Z.ltb_spec (ftkey z x) (ftkey z y)); try reflexivity; try lia.
  destruct (Z.eq_dec (fkey z x) (fkey z y)) as [Q|Q]; [|lia]. rewrite Q, Z.compare_refl in E. rewrite E; reflexivity.
Qed.
Lemma fpmin_mn : forall z x y, num2 z x y -> fpmin z x y = mn z x y.
Proof.
  intros z x y [N E]. destruct (frel_key z x y N) as (F & X & Y). unfold fpmin, mn. rewrite X, Y. cbn [orb].
  rewrite F in E. pose proof (tkey_lt z x y). pose proof (tkey_lt z y x).
  destruct (Z.ltb_spec (fkey z y) (fkey z x)), (Z.ltb_spec (ftkey z y) (ftkey z x)); try reflexivity; try lia.
  destruct (Z.eq_dec (fkey z x) (fkey z y)) as [Q|Q]; [|lia]. rewrite Q, Z.compare_refl in E. rewrite E; reflexivity.
Qed.
Lemma mx_assoc : forall z a c d, mx z (mx z a c) d = mx z a (mx z c d).
Proof. intros. unfold mx. destruct (Z.ltb_spec (fkey z a) (fkey z c)), (Z.ltb_spec (fkey z c) (fkey z d)), (Z.ltb_spec (fkey z a) (fkey z d)); try reflexivity; try lia;
  repeat match goal with |- context [?a <? ?b] => destruct (Z.ltb_spec a b) end; try reflexivity; lia. Qed.
Lemma mn_assoc : forall z a c d, mn z (mn z a c) d = mn z a (mn z c d).
Proof. intros. unfold mn. destruct (Z.ltb_spec (fkey z c) (fkey z a)), (Z.ltb_spec (fkey z d) (fkey z c)), (Z.ltb_spec (fkey z d) (fkey z a)); try reflexivity; try lia;
  repeat match goal with |- context [?a <? ?b] => destruct (Z.ltb_spec a b) end; try reflexivity; lia. Qed.
Lemma mx_in : forall z a b (P : Z -> Prop), P a -> P b -> P (mx z a b).
Proof. intros. unfold mx. destruct (_ <? _); assumption. Qed.
Lemma mn_in : forall z a b (P : Z -> Prop), P a -> P b -> P (mn z a b).
Proof. intros. unfold mn. destruct (_ <? _); assumption. Qed.

Section Eq.
Context `{FpuOps}.
Hypothesis IEEE : fpu_ieee.
Lemma max_mx : forall z x y, inr (fwid z) x -> inr (fwid z) y -> num2 z x y ->
  fpo FMaxnum (fty z) (fty z) [x; y] = Some (mx z x y) /\ fpo FMinnum (fty z) (fty z) [x; y] = Some (mn z x y).
Proof.
  intros z x y X Y [N E]. destruct (fi_max IEEE z x y X Y N E) as [A B]. destruct (frel_key z x y N) as (F & _ & _). rewrite F, frel_lt in A. rewrite F, frel_gt in B.
  unfold fpo. rewrite A, B. cbn [option_map]. unfold mx, mn. change U with trunc. split; apply (f_equal Some); apply trunc_small; rewrite ts_fty; [destruct (fkey z x <? fkey z y)|destruct (fkey z y <? fkey z x)]; assumption.
Qed.
Lemma neg_o : forall z x, inr (fwid z) x -> fpo FNeg (fty z) (fty z) [x] = Some (U (fwid z) (fnegate z x)).
Proof. intros z x X. unfold fpo. rewrite (fi_neg IEEE) by exact X. rewrite ts_fty. reflexivity. Qed.
Lemma abs_o : forall z x, inr (fwid z) x -> fpo FFabs (fty z) (fty z) [x] = Some (U (fwid z) (fpabs z x)).
Proof. intros z x X. unfold fpo. rewrite (fi_abs IEEE) by exact X. rewrite ts_fty. reflexivity. Qed.
Lemma abs_u : forall z x, inr (fwid z) x -> U (fwid z) (fpabs z x) = fpabs z x.
Proof.
  intros z x X. apply trunc_small. unfold fpabs, inr in *. pose proof (fwid_pos z). pose proof (Z.mod_pos_bound x (2 ^ (fwid z - 1)) ltac:(apply pow2_pos; lia)).
  pose proof (Z.pow_le_mono_r 2 (fwid z - 1) (fwid z) ltac:(lia) ltac:(lia)). lia.
Qed.
Lemma fpo_inr : forall f s z l x, fpo f s (fty z) l = Some x -> inr (fwid z) x.
Proof. intros f s z l x E. unfold fpo in E. destruct (fpu_op f s (fty z) l); [|discriminate]. injection E as <-. rewrite ts_fty. apply U_fi. Qed.
Lemma neg_u : forall z x, inr (fwid z) x -> U (fwid z) (fnegate z x) = fnegate z x.
Proof.
  intros z x X. apply trunc_small. unfold fnegate, with_sign, signof, inr in *. pose proof (fwid_pos z).
  pose proof (pow2_pos (fwid z - 1) ltac:(lia)) as P. assert (E : 2 ^ fwid z = 2 * 2 ^ (fwid z - 1)) by (replace (fwid z) with (1 + (fwid z - 1)) at 1 by lia; rewrite Z.pow_add_r by lia; reflexivity).
  rewrite E in *. pose proof (Z.mod_pos_bound x (2 ^ (fwid z - 1)) P). set (m := 2 ^ (fwid z - 1)) in *. assert (0 <= x / m <= 1) by (split; [apply Z.div_pos; lia|apply Z.lt_succ_r, Z.div_lt_upper_bound; lia]). nia.
Qed.
Lemma decomp : forall z x, inr (fwid z) x -> x = signof (fwid z) x * 2 ^ (fwid z - 1) + (fexp z x * 2 ^ fman z + x mod 2 ^ fman z) /\
  0 <= signof (fwid z) x <= 1 /\ 0 <= fexp z x < 2 ^ (fwid z - 1 - fman z) /\ 0 <= x mod 2 ^ fman z < 2 ^ fman z.
Proof.
  intros z x [X1 X2]. unfold signof, fexp. destruct z; cbn [fwid fman] in *;
    [change (2 ^ 32) with 4294967296 in *; change (2 ^ (32 - 1)) with 2147483648; change (2 ^ (32 - 1 - 23)) with 256; change (2 ^ 23) with 8388608
    |change (2 ^ 64) with 18446744073709551616 in *; change (2 ^ (64 - 1)) with 9223372036854775808; change (2 ^ (64 - 1 - 52)) with 2048; change (2 ^ 52) with 4503599627370496]; lia.
Qed.
Lemma scale_parts : forall z x k, inr (fwid z) x -> fpabs z x <> 0 -> 0 <= fexp z x + k < 2 ^ (fwid z - 1 - fman z) ->
  inr (fwid z) (fscale z x k) /\ fexp z (fscale z x k) = fexp z x + k /\ fscale z x k mod 2 ^ fman z = x mod 2 ^ fman z /\ signof (fwid z) (fscale z x k) = signof (fwid z) x.
Proof.
  intros z x k X N K. unfold fscale. replace (fpabs z x =? 0) with false by lia. destruct (decomp z x X) as (E & S1 & B1 & M1).
  replace (x + k * 2 ^ fman z) with (signof (fwid z) x * 2 ^ (fwid z - 1) + ((fexp z x + k) * 2 ^ fman z + x mod 2 ^ fman z)) by lia.
  apply fexp_of; assumption.
Qed.
Lemma zero_val : forall z x, inr (fwid z) x -> fpabs z x = 0 -> exists e, fval z x = Some (0, e).
Proof.
  intros z x X N. destruct (decomp z x X) as (E & S1 & B1 & M1). unfold fpabs in N.
  assert (Q : fexp z x * 2 ^ fman z + x mod 2 ^ fman z = 0).
  { rewrite E in N. rewrite Z.add_comm, Z.mod_add in N by (destruct z; discriminate). rewrite Z.mod_small in N; [exact N|].
    destruct z; cbn [fwid fman] in *; [change (2 ^ (32 - 1 - 23)) with 256 in *; change (2 ^ 23) with 8388608 in *; change (2 ^ (32 - 1)) with 2147483648
    |change (2 ^ (64 - 1 - 52)) with 2048 in *; change (2 ^ 52) with 4503599627370496 in *; change (2 ^ (64 - 1)) with 9223372036854775808]; lia. }
  assert (P : 0 < 2 ^ fman z) by (destruct z; reflexivity). assert (E0 : fexp z x = 0) by nia. assert (M0 : x mod 2 ^ fman z = 0) by nia.
  unfold fval. rewrite E0, M0. replace (0 =? 2 ^ (fwid z - 1 - fman z) - 1) with false by (destruct z; reflexivity). change (0 =? 0) with true. cbv iota. eexists. destruct (signof (fwid z) x =? 0); reflexivity.
Qed.
Lemma rint_zero : forall r e, rint r (0, e) = 0.
Proof. intros r e. unfold rint. cbn [fst snd]. destruct (0 <=? e) eqn:Q; [reflexivity|]. assert (0 < 2 ^ (- e)) by (apply pow2_pos; lia). pose proof (rquot_exact r 0 (2 ^ (- e)) ltac:(lia)) as R. exact R. Qed.
(** A value that fits, scaled, is normal. *)
Lemma scale_fits : forall w sg m r z x fb, 1 <= w <= 64 -> inr (fwid z) x -> fits w sg m fb z x -> frm_mode m = Some r -> 0 < fb <= 64 -> fpabs z x <> 0 -> fexp z x <> 0 ->
  fexp z x + fb < 2 ^ (fwid z - 1 - fman z) - 1.
Proof.
  intros w sg m r z x fb W X F R FB NZ E0. destruct (decomp z x X) as (_ & S1 & B1 & M1). unfold fits in F. rewrite R in F.
  unfold fval in F. destruct (fexp z x =? 2 ^ (fwid z - 1 - fman z) - 1) eqn:EM; [contradiction|]. replace (fexp z x =? 0) with false in F by lia.
  set (f := x mod 2 ^ fman z) in *. set (b := fexp z x) in *.
  destruct (Z_lt_le_dec (b + fb) (2 ^ (fwid z - 1 - fman z) - 1)) as [OK|BAD]; [exact OK|exfalso].
  set (n := if signof (fwid z) x =? 0 then 2 ^ fman z + f else - (2 ^ fman z + f)) in *. set (e := b - (2 ^ (fwid z - 1 - fman z - 1) - 1) - fman z + fb) in *.
  assert (P : 0 < 2 ^ fman z) by (destruct z; reflexivity).
  assert (E : 65 <= e + fman z /\ 0 <= e) by (unfold e; destruct z; cbn [fwid fman] in *; [change (2 ^ (32 - 1 - 23)) with 256 in *; change (2 ^ (32 - 1 - 23 - 1)) with 128|change (2 ^ (64 - 1 - 52)) with 2048 in *; change (2 ^ (64 - 1 - 52 - 1)) with 1024]; lia).
  unfold rint in F. cbn [fst snd] in F. replace (0 <=? e) with true in F by lia.
  assert (G : 2 ^ 65 <= (2 ^ fman z + f) * 2 ^ e).
  { etransitivity; [apply (Z.pow_le_mono_r 2 65 (fman z + e)); lia|]. rewrite Z.pow_add_r by (destruct z; cbn [fman] in *; lia). pose proof (pow2_pos e ltac:(lia)). nia. }
  assert (I1 : - 2 ^ 64 <= imin w sg /\ imax w sg <= 2 ^ 64).
  { unfold imin, imax. pose proof (Z.pow_le_mono_r 2 w 64 ltac:(lia) ltac:(lia)). pose proof (Z.pow_le_mono_r 2 (w - 1) 64 ltac:(lia) ltac:(lia)). destruct sg; lia. }
  change (2 ^ 65) with 36893488147419103232 in G. change (2 ^ 64) with 18446744073709551616 in I1.
  unfold n in F. set (p := (2 ^ fman z + f) * 2 ^ e) in *. destruct (signof (fwid z) x =? 0); [|rewrite Z.mul_opp_l in F]; fold p in F; lia.
Qed.
Lemma toint_o : forall w sg m r fb z x, 1 <= w <= 64 -> inr (fwid z) x -> fits w sg m fb z x -> scales fb z x -> frm_mode m = Some r ->
  exists x' y, (if 0 <? fb then fpo FMul (fty z) (fty z) [x; fpow2 z fb] else Some x) = Some x' /\ fpo (to_integral r) (fty z) (fty z) [x'] = Some y /\
    fpo (if sg then FToSI else FToUI) (fty z) (TInt w) [y] = Some (U w (fptofixed w sg r fb z x)).
Proof.
  intros w sg m r fb z x W X F SC R.
  assert (Q : exists x' v', (if 0 <? fb then fpo FMul (fty z) (fty z) [x; fpow2 z fb] else Some x) = Some x' /\ inr (fwid z) x' /\ fval z x' = Some v' /\
    match fval z x with Some (n, e) => rint r v' = rint r (n, e + fb) | None => False end).
  { destruct SC as [->|[FB SC]].
    { unfold fits in F. rewrite R in F. destruct (fval z x) as [[n e]|] eqn:FV; [|contradiction]. exists x, (n, e). rewrite Z.add_0_r. auto. }
    replace (0 <? fb) with true by lia. exists (fscale z x fb). destruct (Z.eq_dec (fpabs z x) 0) as [Z0|NZ].
    - assert (FE : fscale z x fb = x) by (unfold fscale; rewrite Z0; reflexivity). unfold fpo. rewrite (fi_mul2 IEEE z x fb X ltac:(lia) (or_introl Z0)), FE. cbn [option_map]. rewrite ts_fty.
      destruct (zero_val z x X Z0) as (e & FV). exists (0, e). rewrite FV, !rint_zero. change U with trunc. rewrite (trunc_small _ _ X). auto.
    - assert (E0 : fexp z x <> 0) by (destruct SC; [contradiction|assumption]). pose proof (scale_fits w sg m r z x fb W X F R FB NZ E0) as UB. pose proof (decomp z x X) as (_ & _ & B1 & _).
      destruct (scale_parts z x fb X NZ ltac:(lia)) as (I1 & P1 & P2 & P3).
      assert (K64 : 0 <= fb <= 64) by lia. assert (EP : 0 < fexp z x) by lia. unfold fpo. rewrite (fi_mul2 IEEE z x fb X K64 (or_intror (conj EP UB))). cbn [option_map]. rewrite ts_fty. change U with trunc. rewrite (trunc_small _ _ I1).
      unfold fval. rewrite P1, P2, P3. replace (fexp z x + fb =? 2 ^ (fwid z - 1 - fman z) - 1) with false by lia. replace (fexp z x =? 2 ^ (fwid z - 1 - fman z) - 1) with false by lia.
      replace (fexp z x + fb =? 0) with false by lia. replace (fexp z x =? 0) with false by lia. eexists. do 3 (split; [first [reflexivity|exact I1]|]). f_equal. f_equal. lia. }
  destruct Q as (x' & v' & Q1 & X' & V' & Q2). exists x'. destruct (fi_round IEEE r z x' X') as (y & A & I0 & B). rewrite V' in B. destruct B as (v2 & B & C). exists y. split; [exact Q1|].
  unfold fits in F. rewrite R in F. destruct (fval z x) as [[n e]|] eqn:FV; [|contradiction].
  unfold fpo. rewrite A. cbn [option_map]. rewrite ts_fty. change U with trunc. rewrite (trunc_small (fwid z) y I0). split; [reflexivity|].
  rewrite (fi_int IEEE w sg z y I0), B, C, Q2. replace ((imin w sg <=? rint r (n, e + fb)) && (rint r (n, e + fb) <=? imax w sg)) with true by lia.
  cbn [option_map tsize]. unfold fptofixed. rewrite FV. do 2 f_equal. lia.
Qed.
(** The integer converted, then divided by 2^fb. *)
Lemma fromint_o : forall w (sg : bool) fb z x s, 1 <= w <= 64 -> inr w x -> 0 <= fb <= w -> fpo (if sg then FSIToFP else FUIToFP) (TInt w) (fty z) [x] = Some s ->
  (if 0 <? fb then fpo FDiv (fty z) (fty z) [s; fpow2 z fb] else Some s) = Some (fscale z s (- fb)).
Proof.
  intros w sg fb z x s W X FB E. unfold fpo in E. destruct (fpu_op _ _ _ _) as [s'|] eqn:E'; [|discriminate]. destruct (fi_from IEEE w sg z x s' W X E') as (I1 & B).
  cbn [option_map] in E. rewrite ts_fty in E. change U with trunc in E. rewrite (trunc_small _ _ I1) in E. injection E as <-. destruct (0 <? fb) eqn:F0.
  - assert (C : fpabs z s' = 0 \/ fb < fexp z s' < 2 ^ (fwid z - 1 - fman z) - 1).
    { destruct B as [B|B]; [left; exact B|right]. unfold fone in B. destruct z; cbn [fwid fman] in *; [change (2 ^ (32 - 2 - 23)) with 128 in B; change (2 ^ (32 - 1 - 23)) with 256|change (2 ^ (64 - 2 - 52)) with 1024 in B; change (2 ^ (64 - 1 - 52)) with 2048]; lia. }
    unfold fpo. rewrite (fi_div2 IEEE z s' fb I1 ltac:(lia) C). cbn [option_map]. rewrite ts_fty. change U with trunc. f_equal. apply trunc_small.
    destruct (Z.eq_dec (fpabs z s') 0) as [Z0|NZ]; [unfold fscale; rewrite Z0; exact I1|]. destruct C as [C|C]; [contradiction|]. apply (scale_parts z s' (- fb) I1 NZ). lia.
  - assert (fb = 0) by lia. subst fb. unfold fscale. destruct (fpabs z s' =? 0); f_equal; lia.
Qed.
Lemma pow2_v : forall v z k, vfmt v = Some z -> 0 <= k <= 64 -> U (fwid z) (pow2_fp (fsz_of v) k) = fpow2 z k.
Proof. intros v z k E K. destruct v; try discriminate E; injection E as <-; apply trunc_small; unfold pow2_fp, fpow2, fone, inr; cbn [fwid fman fsz_of]; change (2 ^ (32 - 2 - 23)) with 128; change (2 ^ (64 - 2 - 52)) with 1024; change (2 ^ 23) with 8388608; change (2 ^ 52) with 4503599627370496; change (2 ^ 32) with 4294967296; change (2 ^ 64) with 18446744073709551616; lia. Qed.
Lemma fwid64 : forall z, 1 <= fwid z <= 64.
Proof. intros []; cbn [fwid]; lia. Qed.
Lemma pow2_s : forall v z k, sfmt v = Some z -> 0 <= k <= 64 -> U (fwid z) (pow2_fp v k) = fpow2 z k.
Proof. intros v z k E K. destruct v; try discriminate E; injection E as <-; apply trunc_small; unfold pow2_fp, fpow2, fone, inr; cbn [fwid fman]; change (2 ^ (32 - 2 - 23)) with 128; change (2 ^ (64 - 2 - 52)) with 1024; change (2 ^ 23) with 8388608; change (2 ^ 52) with 4503599627370496; change (2 ^ 32) with 4294967296; change (2 ^ 64) with 18446744073709551616; lia. Qed.
Lemma rdx_in : forall g r w32, inr (bits w32) (rdx g r (bits w32)).
Proof. intros g r w32. unfold rdx. apply trunc_range. destruct w32; cbn [bits]; lia. Qed.
Lemma cmp_o : forall w z x y, 1 < w -> inr (fwid z) x -> inr (fwid z) y ->
  ob (fpo (FCmp P_OEQ) (fty z) (TInt 1) [x; y]) (fun b => Some (sext 1 w b)) = Some (U w (mask_if w (r_eq (frel z x y)))) /\
  ob (fpo (FCmp P_OGT) (fty z) (TInt 1) [x; y]) (fun b => Some (sext 1 w b)) = Some (U w (mask_if w (r_gt (frel z x y)))) /\
  ob (fpo (FCmp P_OGE) (fty z) (TInt 1) [x; y]) (fun b => Some (sext 1 w b)) = Some (U w (mask_if w (r_gt (frel z x y) || r_eq (frel z x y)))) /\
  ob (fpo (FCmp P_OLT) (fty z) (TInt 1) [x; y]) (fun b => Some (sext 1 w b)) = Some (U w (mask_if w (r_lt (frel z x y)))) /\
  ob (fpo (FCmp P_OLE) (fty z) (TInt 1) [x; y]) (fun b => Some (sext 1 w b)) = Some (U w (mask_if w (r_lt (frel z x y) || r_eq (frel z x y)))).
Proof.
  intros w z x y W X Y. destruct (fi_cmp IEEE z x y X Y) as (A & B & C & D & E & _).
  unfold P_OEQ, P_OGT, P_OGE, P_OLT, P_OLE, fpo. rewrite A, B, C, D, E. cbn [option_map ob tsize].
  assert (Q : forall b, Some (sext 1 w (U 1 (b2z b))) = Some (U w (mask_if w b))).
  { intro b. replace (U 1 (b2z b)) with (b2z b) by (destruct b; reflexivity). rewrite sext_mask by exact W. f_equal. symmetry. apply trunc_small, mask_if_inr. lia. }
  rewrite !Q. auto.
Qed.

Section Vec.
Variable i : vinst.
Variable g : kst.
Variable z : fmt.
Let v := v_va i.
Let w := fwid z.
Let t := fty z.
Let N := if v_scalar i then 1 else elems v.
Let en := Ln w (k_q g (v_rn i)).
Let em := Ln w (k_q g (v_rm i)).
Let ed := Ln w (k_q g (v_rd i)).
Let elem := Ln w (k_q g (v_rm i)) (v_imm i).
Let cat (k : Z) : Z := if k <? elems v then en k else em (k - elems v).
Let op2 (f : fpname) (x y : Z) : option Z := fpo f t t [x; y].
Let each (P : Z -> Prop) : Prop := forall k, 0 <= k < N -> P k.
Let fma (f : fpname) (x y a : Z) : Prop := ob (op2 FMul x y) (op2 f a) = fpo FFma t t [if match f with FSub => true | _ => false end then fnegate z x else x; y; a].

(** The operands for which the code is right:
    - conversions to integers need values in range (otherwise the code's result is poison),
      conversions to fixed point also no subnormals;
    - scalar compares need doubles (the code compares doubles whatever the precision);
    - FMUL by element needs products to which adding +0 changes nothing (not -0);
    - multiply-accumulate needs the same result with and without rounding the product;
    - FMAX and its like need numbers, not zeros of different sign. *)
Definition fdef (o : fop) : Prop :=
  match o with
  | V_FCVT => each (fun k => fits w (v_sgn i) (v_mode i) (v_fbits i) z (en k) /\ scales (v_fbits i) z (en k))
  | V_FCMEQ | V_FCMEQ_Z | V_FCMGE | V_FCMGE_Z | V_FCMGT | V_FCMGT_Z | V_FCMLE_Z | V_FCMLT_Z => v_scalar i = true -> z = FD
  | V_FMUL_ELEM => v_scalar i = true \/ each (fun k => ob (op2 FMul (en k) elem) (op2 FAdd 0) = op2 FMul (en k) elem)
  | V_FMLA_ELEM => each (fun k => fma FAdd (en k) elem (ed k))
  | V_FMLA => each (fun k => fma FAdd (en k) (em k) (ed k))
  | V_FMLS_ELEM => each (fun k => fma FSub (en k) elem (ed k))
  | V_FMLS => each (fun k => fma FSub (en k) (em k) (ed k))
  | V_FMAX | V_FMIN => each (fun k => num2 z (en k) (em k))
  | V_FMAXP_VEC | V_FMINP_VEC => each (fun k => num2 z (cat (2 * k)) (cat (2 * k + 1)))
  | V_FMAXP | V_FMINP => num2 z (en 0) (en 1)
  | V_FMAXV | V_FMINV | V_FMAXNMV | V_FMINNMV => forall j k, 0 <= j < 4 -> 0 <= k < 4 -> num2 z (en j) (en k)
  | _ => True
  end.
Hypothesis VF : vfmt v = Some z.

Let NP : 1 <= N <= 16.
Proof. unfold N. pose proof (el_pos v). destruct (v_scalar i); lia. Qed.
Let EN : forall k, inr w (en k). Proof. intro; apply Ln_fi. Qed.
Let EM : forall k, inr w (em k). Proof. intro; apply Ln_fi. Qed.
Let CT : forall k, inr w (cat k). Proof. intro; unfold cat; destruct (_ <? _); auto. Qed.
Let P4 (x : Z) : Prop := exists j, 0 <= j < 4 /\ x = en j.
Lemma p4 : (forall j k, 0 <= j < 4 -> 0 <= k < 4 -> num2 z (en j) (en k)) -> forall x y, P4 x -> P4 y -> inr w x /\ inr w y /\ num2 z x y.
Proof. intros D x y (j & J & ->) (k & K & ->). split; [apply EN|]. split; [apply EN|]. apply D; assumption. Qed.
Lemma p4j : forall j, 0 <= j < 4 -> P4 (en j).
Proof. intros j J. exists j. auto. Qed.
Lemma red4 : (forall j k, 0 <= j < 4 -> 0 <= k < 4 -> num2 z (en j) (en k)) ->
  ored (op2 FMaxnum) en 3 = Some (mx z (mx z (en 0) (en 1)) (mx z (en 2) (en 3))) /\
  ored (op2 FMinnum) en 3 = Some (mn z (mn z (en 0) (en 1)) (mn z (en 2) (en 3))).
Proof.
  intros D. pose proof (p4 D) as Q. pose proof (p4j 0 ltac:(lia)) as A0. pose proof (p4j 1 ltac:(lia)) as A1. pose proof (p4j 2 ltac:(lia)) as A2. pose proof (p4j 3 ltac:(lia)) as A3.
  cbn [ored ob]. change (Z.of_nat 1) with 1. change (Z.of_nat 2) with 2. change (Z.of_nat 3) with 3.
  assert (M : forall x y, P4 x -> P4 y -> op2 FMaxnum x y = Some (mx z x y) /\ op2 FMinnum x y = Some (mn z x y) /\ P4 (mx z x y) /\ P4 (mn z x y)).
  { intros x y X Y. destruct (Q x y X Y) as (IX & IY & N0). destruct (max_mx z x y IX IY N0) as [A B]. repeat split; [exact A|exact B|apply mx_in; assumption|apply mn_in; assumption]. }
  destruct (M _ _ A0 A1) as (X1 & N1 & X1' & N1'). rewrite X1, N1. cbn [ob].
  destruct (M _ _ X1' A2) as (X2 & _ & X2' & _). destruct (M _ _ N1' A2) as (_ & N2 & _ & N2'). rewrite X2, N2. cbn [ob].
  destruct (M _ _ X2' A3) as (X3 & _ & _ & _). destruct (M _ _ N2' A3) as (_ & N3 & _ & _). rewrite X3, N3.
  rewrite mx_assoc, mn_assoc. auto.
Qed.
Lemma tree4 : (forall j k, 0 <= j < 4 -> 0 <= k < 4 -> num2 z (en j) (en k)) ->
  fpmax z (fpmax z (en 0) (en 1)) (fpmax z (en 2) (en 3)) = mx z (mx z (en 0) (en 1)) (mx z (en 2) (en 3)) /\
  fpmin z (fpmin z (en 0) (en 1)) (fpmin z (en 2) (en 3)) = mn z (mn z (en 0) (en 1)) (mn z (en 2) (en 3)) /\
  ob (op2 FMaxnum (en 0) (en 1)) (fun a => ob (op2 FMaxnum (en 2) (en 3)) (fun b => op2 FMaxnum a b)) = Some (mx z (mx z (en 0) (en 1)) (mx z (en 2) (en 3))) /\
  ob (op2 FMinnum (en 0) (en 1)) (fun a => ob (op2 FMinnum (en 2) (en 3)) (fun b => op2 FMinnum a b)) = Some (mn z (mn z (en 0) (en 1)) (mn z (en 2) (en 3))).
Proof.
  intros D. pose proof (p4 D) as Q. pose proof (p4j 0 ltac:(lia)) as A0. pose proof (p4j 1 ltac:(lia)) as A1. pose proof (p4j 2 ltac:(lia)) as A2. pose proof (p4j 3 ltac:(lia)) as A3.
  assert (M : forall x y, P4 x -> P4 y -> op2 FMaxnum x y = Some (mx z x y) /\ op2 FMinnum x y = Some (mn z x y) /\ P4 (mx z x y) /\ P4 (mn z x y) /\ fpmax z x y = mx z x y /\ fpmin z x y = mn z x y).
  { intros x y X Y. destruct (Q x y X Y) as (IX & IY & N0). destruct (max_mx z x y IX IY N0) as [A B].
    repeat split; [exact A|exact B|apply mx_in; assumption|apply mn_in; assumption|apply fpmax_mx; exact N0|apply fpmin_mn; exact N0]. }
  destruct (M _ _ A0 A1) as (X1 & N1 & X1' & N1' & F1 & G1). destruct (M _ _ A2 A3) as (X2 & N2 & X2' & N2' & F2 & G2).
  destruct (M _ _ X1' X2') as (X3 & _ & _ & _ & F3 & _). destruct (M _ _ N1' N2') as (_ & N3 & _ & _ & _ & G3).
  rewrite F1, F2, F3, G1, G2, G3, X1, X2, N1, N2. cbn [ob]. auto.
Qed.
Lemma pureok : forall F f x, (forall k, 0 <= k < N -> F k = Some (U w (f k))) -> Some (out w N f) = Some x -> ovec w F (Z.to_nat N) = Some x.
Proof. intros F f x A <-. apply ovec_pure; [lia|exact A]. Qed.
Lemma extok : forall F F' x, (forall k, 0 <= k < N -> F k = F' k) -> ovec w F' (Z.to_nat N) = Some x -> ovec w F (Z.to_nat N) = Some x.
Proof. intros F F' x A <-. apply ovec_ext. intros k K. apply A. lia. Qed.
Let cmv (p : Z) (y : Z -> Z -> Z) : option Z :=
  if v_scalar i then ovec 64 (fun k => ob (fpo (FCmp p) TF64 (TInt 1) [Ln 64 (k_q g (v_rn i)) k; y 64 k]) (fun b => Some (sext 1 64 b))) 1
  else ovec w (fun k => ob (fpo (FCmp p) t (TInt 1) [en k; y w k]) (fun b => Some (sext 1 w b))) (Z.to_nat N).
Lemma cmok : forall p y c x, (v_scalar i = true -> z = FD) ->
  (forall k, ob (fpo (FCmp p) t (TInt 1) [en k; y w k]) (fun b => Some (sext 1 w b)) = Some (U w (mask_if w (c (frel z (en k) (y w k)))))) ->
  Some (out w N (fun k => mask_if w (c (frel z (en k) (y w k))))) = Some x -> cmv p y = Some x.
Proof.
  intros p y c x D A E. unfold cmv. destruct (v_scalar i) eqn:SC.
  - specialize (D eq_refl). rewrite <- E. change N with 1. change 1%nat with (Z.to_nat 1).
    assert (W64 : w = 64) by (unfold w; rewrite D; reflexivity). assert (T64 : t = TF64) by (unfold t; rewrite D; reflexivity).
    rewrite <- T64, <- W64. apply ovec_pure; [lia|]. intros k K. apply A.
  - rewrite <- E. apply ovec_pure; [lia|]. intros k K. apply A.
Qed.
Lemma z_in : inr w 0.
Proof. split; [lia|apply pow2_pos]. pose proof (fwid_pos z). unfold w. lia. Qed.
Lemma w1 : 1 < w.
Proof. pose proof (fwid_pos z). unfold w. lia. Qed.
Lemma fmaxok : forall F a b x, (forall k, inr w (a k)) -> (forall k, inr w (b k)) -> (forall k, 0 <= k < N -> num2 z (a k) (b k)) ->
  ((forall k, F k = op2 FMaxnum (a k) (b k)) /\ Some (out w N (fun k => fpmax z (a k) (b k))) = Some x) \/ ((forall k, F k = op2 FMinnum (a k) (b k)) /\ Some (out w N (fun k => fpmin z (a k) (b k))) = Some x) ->
  ovec w F (Z.to_nat N) = Some x.
Proof.
  intros F a b x A B D [[FE E]|[FE E]]; rewrite <- E; apply ovec_pure; try lia; intros k K; rewrite FE;
    destruct (max_mx z (a k) (b k) (A k) (B k) (D k K)) as [X Y]; unfold op2; [rewrite fpmax_mx by (apply D; exact K); etransitivity; [exact X|]|rewrite fpmin_mn by (apply D; exact K); etransitivity; [exact Y|]];
    f_equal; symmetry; apply trunc_small; [apply (mx_in z (a k) (b k) (inr w))|apply (mn_in z (a k) (b k) (inr w))]; auto.
Qed.
Lemma r4 : forall f x, elems (v_va i) = 4 -> ored (op2 f) en 3 = Some x -> ored (op2 f) en (Z.to_nat (elems (v_va i) - 1)) = Some x.
Proof. intros f x -> E. exact E. Qed.
Lemma r2 : forall f x, elems (v_va i) = 2 -> op2 f (en 0) (en 1) = Some x -> ored (op2 f) en (Z.to_nat (elems (v_va i) - 1)) = Some x.
Proof. intros f x -> E. exact E. Qed.
Theorem fp_eq : forall o x, wf_fp i o = true -> fdef o -> vres_fp i g z o = Some x -> efp i g z o = Some x.
Proof.
  intros o x WF D E. unfold wf_fp in WF. do 4 (apply andb_true_iff in WF as [WF ?]).
  pose proof (fwid_pos z) as W.
  pose (y2 := fun w k => Ln w (k_q g (v_rm i)) k). pose (y0 := fun w k : Z => 0).
  assert (C2 : forall k, inr w (y2 w k)) by (intro; apply EM). assert (C0 : forall k, inr w (y0 w k)) by (intro; apply z_in).
  pose proof (fun k => cmp_o w z (en k) (y2 w k) w1 (EN k) (C2 k)) as Q2. pose proof (fun k => cmp_o w z (en k) (y0 w k) w1 (EN k) (C0 k)) as Q0.
  destruct o; try exact E.
  - (* FCVT *) change (ob (frm_mode (v_mode i)) (fun r => Some (out w N (fun k => fptofixed w (v_sgn i) r (v_fbits i) z (en k)))) = Some x) in E.
    apply ob_some in E. destruct E as (r & R & E). unfold efp. rewrite (round_mode _ _ R). cbn [ob].
    refine (pureok _ _ x _ E). intros k K. destruct (D k K) as [D1 D2].
    destruct (toint_o w (v_sgn i) (v_mode i) r (v_fbits i) z (en k) (fwid64 z) (EN k) D1 D2 R) as (x' & y & Y0 & Y1 & Y2). etransitivity; [|exact Y2].
    assert (PW : (if 0 <? v_fbits i then fpo FMul (fty z) (fty z) [en k; U w (pow2_fp (fsz_of v) (v_fbits i))] else Some (en k)) = Some x').
    { rewrite <- Y0. destruct (0 <? v_fbits i) eqn:P0; [|reflexivity]. unfold w. rewrite (pow2_v v z _ VF) by (destruct D2 as [D2|[D2 _]]; lia). reflexivity. }
    change (ob (if 0 <? v_fbits i then fpo FMul (fty z) (fty z) [en k; U w (pow2_fp (fsz_of v) (v_fbits i))] else Some (en k)) (fun x => ob (fpo (to_integral r) (fty z) (fty z) [x]) (fun y => fpo (if v_sgn i then FToSI else FToUI) (fty z) (TInt w) [y])) = fpo (if v_sgn i then FToSI else FToUI) (fty z) (TInt w) [y]).
    rewrite PW. cbn [ob]. rewrite Y1. reflexivity.
  - (* CVTF *) change ((if (0 <=? v_fbits i) && (v_fbits i <=? w) then ovec w (fun k => ob (fpo (if v_sgn i then FSIToFP else FUIToFP) (TInt w) t [en k]) (fun s => Some (fscale z s (- v_fbits i)))) (Z.to_nat N) else None) = Some x) in E.
    destruct ((0 <=? v_fbits i) && (v_fbits i <=? w)) eqn:FB; [|discriminate E]. refine (extok _ _ x _ E). intros k K.
    change (ob (fpo (if v_sgn i then FSIToFP else FUIToFP) (TInt w) t [en k]) (fun x0 => if 0 <? v_fbits i then fpo FDiv t t [x0; U w (pow2_fp (fsz_of v) (v_fbits i))] else Some x0) = ob (fpo (if v_sgn i then FSIToFP else FUIToFP) (TInt w) t [en k]) (fun s => Some (fscale z s (- v_fbits i)))).
    destruct (fpo (if v_sgn i then FSIToFP else FUIToFP) (TInt w) t [en k]) as [s|] eqn:S1; [|reflexivity]. cbn [ob].
    assert (W64 : 1 <= w <= 64) by apply (fwid64 z). unfold w at 1. rewrite (pow2_v v z _ VF) by lia. apply (fromint_o w (v_sgn i) (v_fbits i) z (en k) s W64 (EN k)); [lia|exact S1].
  - (* FRINT *) unfold efp, vres_fp in *. destruct (v_fbits i =? 0); [|discriminate]. apply ob_some in E. destruct E as (r & R & E). rewrite (round_mode _ _ R). exact E.
  - (* FRINTX *) unfold efp, vres_fp in *. destruct (v_fbits i =? 0); [|discriminate]. apply ob_some in E. destruct E as (r & R & E). rewrite (round_mode _ _ R). exact E.
  - exact (cmok P_OEQ y2 r_eq x D (fun k => proj1 (Q2 k)) E).
  - exact (cmok P_OEQ y0 r_eq x D (fun k => proj1 (Q0 k)) E).
  - exact (cmok P_OGE y2 (fun r => r_gt r || r_eq r) x D (fun k => proj1 (proj2 (proj2 (Q2 k)))) E).
  - exact (cmok P_OGE y0 (fun r => r_gt r || r_eq r) x D (fun k => proj1 (proj2 (proj2 (Q0 k)))) E).
  - exact (cmok P_OGT y2 r_gt x D (fun k => proj1 (proj2 (Q2 k))) E).
  - exact (cmok P_OGT y0 r_gt x D (fun k => proj1 (proj2 (Q0 k))) E).
  - exact (cmok P_OLE y0 (fun r => r_lt r || r_eq r) x D (fun k => proj2 (proj2 (proj2 (proj2 (Q0 k))))) E).
  - exact (cmok P_OLT y0 r_lt x D (fun k => proj1 (proj2 (proj2 (proj2 (Q0 k))))) E).
  - (* FABS *) refine (pureok _ _ x _ E). intros k K. apply abs_o, EN.
  - (* FABD *) refine (extok _ _ x _ E). intros k K. cbn beta. destruct (fpo FSub t t [en k; em k]) as [d|] eqn:Q; change (fwid z) with w; change (fty z) with t; unfold en, em in Q; rewrite Q; [|reflexivity].
    cbn [ob]. change t with (fty z). rewrite abs_o, abs_u by (apply (fpo_inr _ _ _ _ _ Q)). reflexivity.
  - (* FNEG *) refine (pureok _ _ x _ E). intros k K. apply neg_o, EN.
  - (* FMUL_ELEM *) refine (extok _ _ x _ E). intros k K. cbn beta. destruct D as [D|D]; [rewrite D; reflexivity|]. destruct (v_scalar i); [reflexivity|]. apply D. exact K.
  - (* FMAX *) refine (fmaxok _ en em x EN EM D (or_introl (conj (fun _ => eq_refl) E))).
  - (* FMIN *) refine (fmaxok _ en em x EN EM D (or_intror (conj (fun _ => eq_refl) E))).
  - (* FMLA_ELEM *) refine (extok _ _ x _ E). exact D.
  - (* FMLA *) refine (extok _ _ x _ E). exact D.
  - (* FMLS_ELEM *) refine (extok _ _ x _ E). exact D.
  - (* FMLS *) refine (extok _ _ x _ E). exact D.
  - (* FMOV *) refine (pureok _ _ x _ E). reflexivity.
  - (* FMAXP_VEC *) refine (fmaxok _ (fun k => cat (2 * k)) (fun k => cat (2 * k + 1)) x (fun k => CT _) (fun k => CT _) D (or_introl (conj (fun _ => eq_refl) E))).
  - (* FMINP_VEC *) refine (fmaxok _ (fun k => cat (2 * k)) (fun k => cat (2 * k + 1)) x (fun k => CT _) (fun k => CT _) D (or_intror (conj (fun _ => eq_refl) E))).
  - (* FMAXV *) apply r4; [lia|]. rewrite (proj1 (red4 D)), <- (proj1 (tree4 D)). exact E.
  - (* FMAXNMV *) apply r4; [lia|]. rewrite (proj1 (red4 D)), <- (proj1 (proj2 (proj2 (tree4 D)))). exact E.
  - (* FMAXP *) apply r2; [lia|]. unfold op2. destruct (max_mx z (en 0) (en 1) (EN 0) (EN 1) D) as [X _]. etransitivity; [exact X|]. rewrite <- fpmax_mx by exact D. exact E.
  - (* FMAXNMP *) apply r2; [lia|]. exact E.
  - (* FMINV *) apply r4; [lia|]. rewrite (proj2 (red4 D)), <- (proj1 (proj2 (tree4 D))). exact E.
  - (* FMINNMV *) apply r4; [lia|]. rewrite (proj2 (red4 D)), <- (proj2 (proj2 (proj2 (tree4 D)))). exact E.
  - (* FMINP *) apply r2; [lia|]. unfold op2. destruct (max_mx z (en 0) (en 1) (EN 0) (EN 1) D) as [_ X]. etransitivity; [exact X|]. rewrite <- fpmin_mn by exact D. exact E.
  - (* FMINNMP *) apply r2; [lia|]. exact E.
Qed.
End Vec.
Theorem fp_ok : forall c i g o g', c_arch c = AArch64 -> wf_fp i o = true -> kfp i g o = Some g' ->
  (forall z, vfmt (v_va i) = Some z -> fdef i g z o) -> vok c (lift_fp i o) g g'.
Proof.
  intros c i g o g' HA WF KF D. unfold kfp in KF. apply ob_some in KF. destruct KF as (z & VF & KF). apply ob_some in KF. destruct KF as (x & E & KF). injection KF as <-.
  apply (fp_emit c i g z o x HA VF WF). apply fp_eq; auto.
Qed.

(** Scalar instructions: as above; FCVT to the same precision does not exist. *)
Definition sdef (i : vinst) (g : kst) (z : fmt) (o : sop) : Prop :=
  let w := fwid z in
  let t := fty z in
  let x := U w (k_q g (v_rn i)) in
  let y := U w (k_q g (v_rm i)) in
  let a := U w (k_q g (v_ra i)) in
  match o with
  | S_FCVT_GPR => fits (bits (v_w32 i)) (v_sgn i) (v_mode i) (v_fbits i) z x /\ scales (v_fbits i) z x
  | S_FMAX | S_FMIN => num2 z x y
  | S_FMADD | S_FMSUB | S_FNMADD | S_FNMSUB =>
    (* the product rounded, then the sum, gives the fused result *)
    match o with
    | S_FMADD => ob (fpo FMul t t [x; y]) (fun m => fpo FAdd t t [m; a]) = fpo FFma t t [x; y; a]
    | S_FMSUB => ob (fpo FMul t t [x; y]) (fun m => fpo FAdd t t [fnegate z m; a]) = fpo FFma t t [fnegate z x; y; a]
    | S_FNMADD => ob (fpo FMul t t [x; y]) (fun m => fpo FSub t t [fnegate z m; a]) = fpo FFma t t [fnegate z x; y; fnegate z a]
    | _ => ob (fpo FMul t t [x; y]) (fun m => fpo FSub t t [m; a]) = fpo FFma t t [x; y; fnegate z a]
    end
  | _ => True
  end.
Lemma cmp_s : forall g z x y r, inr (fwid z) x -> inr (fwid z) y -> Some (wrf g (fpcompare (frel z x y))) = Some r ->
  ob (fpo (FCmp P_UNO) (fty z) (TInt 1) [x; y]) (fun un => ob (fpo (FCmp P_OEQ) (fty z) (TInt 1) [x; y]) (fun eq => ob (fpo (FCmp P_OLT) (fty z) (TInt 1) [x; y]) (fun lt =>
    Some (wrf g (nzcv (lt =? 1) (eq =? 1) (negb (lt =? 1)) (un =? 1)))))) = Some r.
Proof.
  intros g z x y r X Y E. destruct (fi_cmp IEEE z x y X Y) as (A & _ & _ & D & _ & F).
  unfold P_OEQ, P_OLT, P_UNO, fpo. rewrite A, D, F. cbn [option_map ob tsize]. rewrite <- E. do 2 f_equal. destruct (frel z x y) as [[]|]; reflexivity.
Qed.
Theorem sfp_eq : forall i g z o r, sfmt (v_fsz i) = Some z -> sdef i g z o -> ksfp_z i g z o = Some r -> esfp i g z o = Some r.
Proof.
  intros i g z o r SF D E. pose proof (fwid_pos z) as W.
  assert (X : inr (fwid z) (U (fwid z) (k_q g (v_rn i)))) by apply U_fi. assert (Y : inr (fwid z) (U (fwid z) (k_q g (v_rm i)))) by apply U_fi.
  destruct o; try exact E.
  - (* FCVT_GPR *) destruct D as [D1 D2]. unfold ksfp_z in E. apply ob_some in E. destruct E as (m & R & E). injection E as <-.
    unfold esfp. rewrite (round_mode _ _ R). cbn [ob].
    destruct (toint_o (bits (v_w32 i)) (v_sgn i) (v_mode i) m (v_fbits i) z _ ltac:(destruct (v_w32 i); cbn [bits]; lia) X D1 D2 R) as (x' & y & Y0 & Y1 & Y2).
    assert (PW : (if 0 <? v_fbits i then fpo FMul (fty z) (fty z) [U (fwid z) (k_q g (v_rn i)); U (fwid z) (pow2_fp (v_fsz i) (v_fbits i))] else Some (U (fwid z) (k_q g (v_rn i)))) = Some x').
    { rewrite <- Y0. destruct (0 <? v_fbits i) eqn:P0; [|reflexivity]. rewrite (pow2_s _ z _ SF) by (destruct D2 as [D2|[D2 _]]; lia). reflexivity. }
    rewrite PW. cbn [ob]. rewrite Y1. cbn [ob]. rewrite Y2. cbn [ob].
    f_equal. destruct (v_xd i); cbn [wrx]; try reflexivity; unfold U; rewrite ?Zmod_mod; reflexivity.
  - (* CVTF *) unfold ksfp_z, esfp in *. destruct ((0 <=? v_fbits i) && (v_fbits i <=? bits (v_w32 i))) eqn:FB; [|discriminate E].
    assert (W64 : 1 <= bits (v_w32 i) <= 64) by (destruct (v_w32 i); cbn [bits]; lia).
    destruct (fpo (if v_sgn i then FSIToFP else FUIToFP) (TInt (bits (v_w32 i))) (fty z) [rdx g (v_xn i) (bits (v_w32 i))]) as [s|] eqn:S1; [|exact E]. cbn [ob] in *. rewrite (pow2_s _ z _ SF) by lia.
    rewrite (fromint_o (bits (v_w32 i)) (v_sgn i) (v_fbits i) z _ s W64 (rdx_in g _ _) ltac:(lia) S1). exact E.
  - unfold ksfp_z, esfp in *. destruct (v_fbits i =? 0); [|discriminate]. apply ob_some in E. destruct E as (m & R & E). rewrite (round_mode _ _ R). exact E.
  - unfold ksfp_z, esfp in *. destruct (v_fbits i =? 0); [|discriminate]. apply ob_some in E. destruct E as (m & R & E). rewrite (round_mode _ _ R). exact E.
  - unfold ksfp_z, esfp in *. destruct z; [discriminate|exact E].
  - unfold ksfp_z, esfp in *. destruct z; [exact E|discriminate].
  - unfold ksfp_z, esfp in *. rewrite abs_o, abs_u by exact X. exact E.
  - unfold ksfp_z, esfp in *. rewrite neg_o, neg_u by exact X. exact E.
  - unfold ksfp_z, esfp in *. destruct (max_mx z _ _ X Y D) as [M _]. rewrite M, <- fpmax_mx by exact D. exact E.
  - unfold ksfp_z, esfp in *. destruct (max_mx z _ _ X Y D) as [_ M]. rewrite M, <- fpmin_mn by exact D. exact E.
  - unfold ksfp_z, esfp in *. destruct (fpo FMul _ _ _) as [m|] eqn:Q; [|discriminate]. cbn [ob] in *. pose proof (fpo_inr _ _ _ _ _ Q) as I0. rewrite neg_o, neg_u by exact I0. exact E.
  - unfold ksfp_z, esfp, sdef in *. rewrite <- D in E. destruct (fpo FMul _ _ _) as [m|]; exact E.
  - unfold ksfp_z, esfp, sdef in *. rewrite <- D in E. destruct (fpo FMul _ _ _) as [m|] eqn:Q; [|exact E]. cbn [ob] in *. pose proof (fpo_inr _ _ _ _ _ Q) as I0. rewrite neg_o, neg_u by exact I0. exact E.
  - unfold ksfp_z, esfp, sdef in *. rewrite <- D in E. destruct (fpo FMul _ _ _) as [m|] eqn:Q; [|exact E]. cbn [ob] in *. pose proof (fpo_inr _ _ _ _ _ Q) as I0. rewrite neg_o, neg_u by exact I0. exact E.
  - unfold ksfp_z, esfp, sdef in *. rewrite <- D in E. destruct (fpo FMul _ _ _) as [m|]; exact E.
  - apply cmp_s; assumption.
  - apply cmp_s; [exact X| |assumption]. split; [lia|apply pow2_pos; lia].
Qed.
Theorem sfp_ok : forall c i g o g', c_arch c = AArch64 -> wf_sfp i o = true -> ksfp i g o = Some g' ->
  (forall z, sfmt (v_fsz i) = Some z -> sdef i g z o) -> vok c (lift_sfp i o) g g'.
Proof.
  intros c i g o g' HA WF KF D. unfold ksfp in KF. apply ob_some in KF. destruct KF as (z & SF0 & KF).
  apply (sfp_emit c i g z o g' HA SF0 WF). apply sfp_eq; auto.
Qed.
End Eq.
