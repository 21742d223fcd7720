(** A concrete FPU obeying [fpu_ieee], and instructions for the examples. *)

From Coq Require Import ZArith Lia ZifyBool List Bool.
From Verif Require Import Bits IR Facet Dsl Rv64Spec Rv64Sim Rv64FpSpec Rv64FpEx.
From Verif Require Import A64Base A64Simd A64 A64Spec A64Sim A64SimdSpec A64SimdFpSpec A64SimdStep A64Step.
Import ListNotations.
Open Scope Z_scope.
Ltac Zify.zify_post_hook ::= Z.div_mod_to_equations.

(** Predicates of fcmp by number; comparison, sign operations, minimum, maximum, signs of
    zeros in sums and products, and products and quotients by powers of two exact, the
    rest as in [fpu_z]. *)
Definition fcmp_p (p : Z) (r : option comparison) : bool :=
  if p =? 1 then r_eq r else if p =? 2 then r_gt r else if p =? 3 then r_gt r || r_eq r
  else if p =? 4 then r_lt r else if p =? 5 then r_lt r || r_eq r else if p =? 8 then r_un r else false.
Definition fmaxnum (lt : option comparison -> bool) (z : Rv64FpSpec.fsz) (x y : Z) : Z :=
  if fnan z x then if fnan z y then fqnan z else y else if fnan z y then x else if lt (frel z x y) then y else x.
Definition fzero (z : Rv64FpSpec.fsz) (x : Z) : bool := fpabs z x =? 0.
(** [k] if [y] is 2^k and [x * 2^(d*k)] exact. *)
Definition fscaler (z : Rv64FpSpec.fsz) (d x y : Z) : option Z :=
  let k := y / 2 ^ fman z - fone z in
  if (y =? fpow2 z k) && (0 <=? k) && (k <=? 64) && (fzero z x || (0 <? fexp z x) && (0 <? fexp z x + d * k) && (fexp z x + d * k <? 2 ^ (fwid z - 1 - fman z) - 1) && (fexp z x <? 2 ^ (fwid z - 1 - fman z) - 1)) then Some k else None.
Definition fpu_a : FpuOps := fun f s t args =>
  let z := zof s in
  match f, args with
  | FCmp p, [x; y] => Some (b2z (fcmp_p p (frel z x y)))
  | FFabs, [x] => Some (fpabs z x)
  | FRint, [x] => Some (fround RNE z x)
  | FTruncI, [x] => Some (fround RTZ z x)
  | FMaxnum, [x; y] => Some (fmaxnum r_lt z x y)
  | FMinnum, [x; y] => Some (fmaxnum r_gt z x y)
  | FDiv, [x; y] => match fscaler z (-1) x y with Some k => Some (fscale z x (- k)) | None => fpu_z f s t args end
  | FMul, [x; y] => match fscaler z 1 x y with Some k => Some (fscale z x k) | None =>
    if (fzero z x || fzero z y) && negb (fnan z x || fnan z y) then Some (if signof (fwid z) x =? signof (fwid z) y then 0 else 2 ^ (fwid z - 1)) else fpu_z f s t args end
  | FAdd, [x; y] => if fzero z x && fzero z y then Some (if (signof (fwid z) x =? 1) && (signof (fwid z) y =? 1) then 2 ^ (fwid z - 1) else 0) else fpu_z f s t args
  | _, _ => fpu_z f s t args
  end.
Lemma zof_fty : forall z, zof (fty z) = z.
Proof. intros []; reflexivity. Qed.
Lemma fscaler_eq : forall z d x k, 0 <= k <= 64 ->
  fpabs z x = 0 \/ 0 < fexp z x /\ 0 < fexp z x + d * k /\ fexp z x + d * k < 2 ^ (fwid z - 1 - fman z) - 1 /\ fexp z x < 2 ^ (fwid z - 1 - fman z) - 1 -> fscaler z d x (fpow2 z k) = Some k.
Proof.
  intros z d x k K C. unfold fscaler. replace (fpow2 z k / 2 ^ fman z - fone z) with k by (unfold fpow2; rewrite Z.div_mul by (destruct z; discriminate); lia).
  rewrite Z.eqb_refl. unfold fzero. set (e := fexp z x) in *. set (dk := d * k) in *. replace ((0 <=? k) && (k <=? 64)) with true by lia.
  match goal with |- (if ?b then _ else _) = _ => replace b with true by lia end. reflexivity.
Qed.
(** Encoding a nonzero integer of at most 64 bits. *)
Lemma fenc_exp : forall z k, Z.abs k <= 2 ^ 64 -> inr (fwid z) (fenc z (k, 0)) /\ (fpabs z (fenc z (k, 0)) = 0 \/ fone z <= fexp z (fenc z (k, 0)) <= fone z + 64).
Proof.
  intros z k K. unfold fenc. destruct (Z.eqb_spec k 0) as [->|N0]; [split; [destruct z; split; cbn [fwid]; lia|left; destruct z; reflexivity]|].
  set (a := Z.abs k) in *. assert (A : 0 < a) by lia. set (L := Z.log2 a).
  pose proof (Z.log2_nonneg a) as L0. fold L in L0. pose proof (Z.log2_spec a A) as LS. fold L in LS.
  assert (LM : L <= 64) by (unfold L; rewrite <- (Z.log2_pow2 64) by lia; apply Z.log2_le_mono; exact K).
  assert (L64 : L = 64 -> a = 2 ^ 64) by (intro Q; rewrite Q in LS; change (2 ^ 64) with 18446744073709551616 in *; lia).
  assert (FM : 0 < fman z < 64) by (destruct z; cbn; lia).
  assert (Q : Z.max (L - fman z + 0) (femin z) = L - fman z) by (unfold femin; destruct z; cbn [fman fbias] in *; lia). rewrite Q.
  set (sg := if L - fman z <=? 0 then a * 2 ^ (0 - (L - fman z)) else rquot RNE a (2 ^ (L - fman z - 0))).
  assert (SG : 2 ^ fman z <= sg <= 2 ^ (fman z + 1) /\ (L = 64 -> sg = 2 ^ fman z)).
  { unfold sg. rewrite Z.pow_add_r by lia. destruct (Z.leb_spec (L - fman z) 0).
    - replace (0 - (L - fman z)) with (fman z - L) by lia. destruct LS as [LA LB]. rewrite Z.pow_succ_r in LB by lia.
      assert (P : 2 ^ fman z = 2 ^ L * 2 ^ (fman z - L)) by (rewrite <- Z.pow_add_r by lia; f_equal; lia). rewrite P. pose proof (pow2_pos (fman z - L) ltac:(lia)). change (2 ^ 1) with 2. split; [nia|lia].
    - rewrite Z.sub_0_r. assert (P : 2 ^ L = 2 ^ fman z * 2 ^ (L - fman z)) by (rewrite <- Z.pow_add_r by lia; f_equal; lia).
      split.
      + rewrite Z.pow_succ_r in LS by lia. rewrite P in LS. pose proof (pow2_pos (L - fman z) ltac:(lia)) as D0. set (d := 2 ^ (L - fman z)) in *. set (M := 2 ^ fman z) in *. change (2 ^ 1) with 2.
        assert (R : M <= a / d < 2 * M) by (split; [apply Z.div_le_lower_bound; lia|apply Z.div_lt_upper_bound; lia]).
        cbn [rquot]. destruct (2 * (a mod d) <? d); [lia|]. destruct (d <? 2 * (a mod d)); [lia|]. destruct (Z.even (a / d)); lia.
      + intro Q64. rewrite (L64 Q64), <- Q64, P. apply rquot_exact. apply pow2_pos. lia. }
  destruct SG as [SG SG64].
  assert (R : exists m p, (if sg =? 2 ^ (fman z + 1) then (sg / 2, L - fman z + 1) else (sg, L - fman z)) = (m, p) /\ 2 ^ fman z <= m < 2 ^ (fman z + 1) /\ 0 <= p + fman z <= 64).
  { rewrite Z.pow_add_r in * by lia. change (2 ^ 1) with 2 in *. pose proof (pow2_pos (fman z) ltac:(lia)). destruct (Z.eqb_spec sg (2 ^ fman z * 2)) as [S2|].
    - exists (2 ^ fman z), (L - fman z + 1). rewrite S2, Z.div_mul by lia. split; [reflexivity|]. split; [lia|]. assert (L <> 64) by lia. lia.
    - exists sg, (L - fman z). split; [reflexivity|]. lia. }
  destruct R as (m & p & -> & M1 & P1). replace (m <? 2 ^ fman z) with false by lia.
  assert (B : p - femin z + 1 = p + fman z + fbias z) by (unfold femin; lia). rewrite B. set (b := p + fman z + fbias z) in *.
  assert (BB : fone z <= b <= fone z + 64 /\ b < fbias z * 2 + 1 /\ 0 <= b < 2 ^ (fwid z - 1 - fman z)).
  { unfold b, fone. destruct z; cbn [fwid fman fbias] in *; [change (2 ^ (32 - 1 - 23)) with 256; change (2 ^ (32 - 2 - 23)) with 128|change (2 ^ (64 - 1 - 52)) with 2048; change (2 ^ (64 - 2 - 52)) with 1024]; lia. }
  destruct BB as (B1 & B2 & B3). replace (fbias z * 2 + 1 <=? b) with false by lia.
  set (sb := if k <? 0 then 1 else 0). replace (if k <? 0 then 2 ^ (fwid z - 1) else 0) with (sb * 2 ^ (fwid z - 1)) by (unfold sb; destruct (k <? 0); lia).
  destruct (fexp_of z sb b (m mod 2 ^ fman z)) as (I & FE & _ & _).
  { unfold sb. destruct (k <? 0); lia. } { exact B3. } { apply Z.mod_pos_bound. apply pow2_pos. lia. }
  split; [exact I|right]. rewrite FE. exact B1.
Qed.
Lemma fpu_a_ieee : @fpu_ieee fpu_a.
Proof.
  split.
  - intros z x y _ _. unfold fpu_op, fpu_a. rewrite zof_fty. repeat split; reflexivity.
  - intros z x I. unfold fpu_op, fpu_a, fpu_z. rewrite zof_fty. reflexivity.
  - intros z x I. unfold fpu_op, fpu_a. rewrite zof_fty. reflexivity.
  - intros w sg z x I. destruct sg; unfold fpu_op, fpu_a, fpu_z; rewrite zof_fty; reflexivity.
  - intros r z x I. exists (fround r z x). split.
    { destruct r; unfold to_integral, fpu_op, fpu_a, fpu_z; rewrite zof_fty; reflexivity. }
    unfold fround. destruct (fval z x) as [v|] eqn:V; [|auto].
    destruct (Z.leb_spec 0 (snd v)) as [P|P].
    + split; [exact I|]. rewrite V. exists v. split; [reflexivity|]. intro r'. unfold rint. destruct (Z.leb_spec 0 (snd v)); [reflexivity|lia].
    + destruct (fenc_int z (rint r v) (rint_small z x v r V P I)) as (J & v' & FV & RV). split; [exact J|]. exists v'. auto.
  - intros f z x y IN IX IY NX NY. unfold fpu_op, fpu_a. rewrite zof_fty. destruct IN as [<-|[<-|[]]]; unfold fmaxnum; rewrite NX, NY; auto.
  - intros z x y IX IY NN EQ. unfold fpu_op, fpu_a. rewrite zof_fty. unfold fmaxnum.
    assert (N2 : fnan z x = false /\ fnan z y = false) by (unfold frel in NN; destruct (fnan z x), (fnan z y); cbn [orb] in NN; try congruence; auto).
    destruct N2 as [-> ->]. auto.
  - intros w sg z x s W X E. assert (P : 2 ^ (w - 1) <= 2 ^ 64 /\ 2 ^ w <= 2 ^ 64) by (split; apply Z.pow_le_mono_r; lia).
    assert (E2 : s = fenc z (if sg then sgn w x else x, 0)).
    { destruct sg; unfold fpu_op, fpu_a, fpu_z in E; rewrite zof_fty in E; injection E as <-; reflexivity. }
    subst s. apply fenc_exp. destruct sg; [|unfold inr in X; lia]. pose proof (sgn_range w x ltac:(lia) X). lia.
  - intros z x k X K C. unfold fpu_op, fpu_a. rewrite zof_fty, (fscaler_eq z 1 x k K); [reflexivity|]. destruct C as [C|C]; [left; exact C|right]. rewrite Z.mul_1_l. lia.
  - intros z x k X K C. unfold fpu_op, fpu_a. rewrite zof_fty, (fscaler_eq z (-1) x k K); [reflexivity|]. destruct C as [C|C]; [left; exact C|right]. replace (-1 * k) with (- k) by lia. lia.
Qed.

(** An instruction on v1 := v2, v3 (accumulating v4). *)
Definition vi (o : vop) (a : va) (z : A64Base.fsz) (sgn sc : bool) (imm : Z) : vinst :=
  VInst o a false sgn sc false 1 2 3 4 (RX 3) (RX 1) (RX 2) imm 1 2 2 1 32 VAM_POST z FPR_ZERO 0.
Definition avec (v : vinst) : ainst :=
  AInst (A_VEC v) false false (RX 3) (RX 1) (RX 2) (RX 4) (RX 5) (RX 6) 0 0 SH_LSL 0 UXTW 0 0 0 0 0 0 AM_SIMPLE UXTX FSZ_D 1 2 3 4 0x1000.
(** A state whose vector registers hold [q]. *)
Definition kexq (q : Z -> Z) : kst := Kst (fun n => U 64 (0x2000 + n)) 0x4000 (fun _ => Some true) (fun n => U 128 (q n)) 0x7000 0x1000 (fun a => a mod 256).
Lemma krel_exq : forall q, krel (kst_of (kexq q)) (kexq q).
Proof.
  intros q. split; cbn [kst_of kexq s_reg s_mem k_x k_sp k_f k_q k_tp k_m].
  - intros n N. destruct (n =? 31) eqn:A; [lia|]. destruct (n =? 256) eqn:B; [lia|reflexivity].
  - intros. apply trunc_range. lia.
  - reflexivity.
  - split; [lia|reflexivity].
  - intros fg b E. destruct fg; injection E as <-; reflexivity.
  - reflexivity.
  - intros. apply trunc_range. lia.
  - reflexivity.
  - split; [lia|reflexivity].
  - reflexivity.
Qed.
Lemma kctx_exq : forall i q, a_start i = 0x1000 -> kwf i = true -> k_ctx c_a i (kst_of (kexq q)) (kexq q).
Proof. intros i q ST W. split; [reflexivity|apply krel_exq|rewrite ST; reflexivity|exact W|]. intros fg _. discriminate. Qed.

(** The lifted code for [i] runs, but does not reach the state of the architecture, or
    it does not run at all. *)
Definition a_misses `{FpuOps} (c : cenv) (cfg : acfg) (i : ainst) (s : st) (g : kst) : Prop :=
  exists l g', lift_a64 cfg i = Some (true, l) /\ kstep (al_clobber cfg) i g = Some g' /\ forall s', run c s l = Ok s' -> ~ krel s' g'.
Definition opt_eqb (a b : option Z) : bool := match a, b with Some x, Some y => x =? y | None, None => true | _, _ => false end.
Definition missb `{FpuOps} (c : cenv) (cfg : acfg) (i : ainst) (s : st) (g : kst) (r : areg) (f : kst -> Z) : bool :=
  match lift_a64 cfg i, kstep (al_clobber cfg) i g with
  | Some (true, l), Some g' => match run c s l with Ok s' => negb (opt_eqb (s_reg s' r) (Some (f g'))) | _ => false end
  | _, _ => false
  end.
Lemma missb_q : forall `{FpuOps} c cfg i s g n, 0 <= n < 32 -> missb c cfg i s g (VEC n) (fun g => k_q g n) = true -> a_misses c cfg i s g.
Proof.
  intros F c cfg i s g n N E. unfold missb in E. destruct (lift_a64 cfg i) as [[[|] l]|] eqn:L; try discriminate E.
  destruct (kstep (al_clobber cfg) i g) as [g'|] eqn:K; [|discriminate E]. exists l, g'. split; [exact L|]. split; [exact K|].
  intros s' RN R. rewrite RN in E. rewrite (kr_q _ _ R n N) in E. cbn [opt_eqb] in E. rewrite Z.eqb_refl in E. discriminate E.
Qed.
Lemma missb_x : forall `{FpuOps} c cfg i s g n, 0 <= n < 31 -> missb c cfg i s g (GP n) (fun g => k_x g n) = true -> a_misses c cfg i s g.
Proof.
  intros F c cfg i s g n N E. unfold missb in E. destruct (lift_a64 cfg i) as [[[|] l]|] eqn:L; try discriminate E.
  destruct (kstep (al_clobber cfg) i g) as [g'|] eqn:K; [|discriminate E]. exists l, g'. split; [exact L|]. split; [exact K|].
  intros s' RN R. rewrite RN in E. rewrite (kr_x _ _ R n N) in E. cbn [opt_eqb] in E. rewrite Z.eqb_refl in E. discriminate E.
Qed.
