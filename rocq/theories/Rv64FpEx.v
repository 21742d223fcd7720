(** A concrete FPU over integers, used to show that the hypotheses of the
    floating-point theorems can be met: finite values, round to nearest even. *)

From Coq Require Import ZArith Lia ZifyBool List Bool.
From Verif Require Import Bits IR Facet Dsl Rv64 Rv64Spec Rv64Sim Rv64FpSpec.
Import ListNotations.
Open Scope Z_scope.
Ltac Zify.zify_post_hook ::= Z.div_mod_to_equations.

Definition fbias (z : fsz) : Z := match z with FS => 127 | FD => 1023 end.
Definition femin (z : fsz) : Z := 1 - fbias z - fman z.
(** The pattern of [n * 2^e] rounded to nearest even; overflow gives infinity. *)
Definition fenc (z : fsz) (v : Z * Z) : Z :=
  let '(n, e) := v in
  if n =? 0 then 0 else
  let a := Z.abs n in
  let q := Z.max (Z.log2 a - fman z + e) (femin z) in
  let sg := if q <=? e then a * 2^(e - q) else rquot RNE a (2^(q - e)) in
  let '(m, p) := if sg =? 2^(fman z + 1) then (sg / 2, q + 1) else (sg, q) in
  let b := if m <? 2^fman z then 0 else p - femin z + 1 in
  (if n <? 0 then 2^(fwid z - 1) else 0) +
  (if fbias z * 2 + 1 <=? b then (fbias z * 2 + 1) * 2^fman z else b * 2^fman z + m mod 2^fman z).
Definition fqnan (z : fsz) : Z := match z with FS => 0x7fc00000 | FD => 0x7ff8000000000000 end.
Definition vmul (u v : Z * Z) : Z * Z := (fst u * fst v, snd u + snd v).
Definition vadd (u v : Z * Z) : Z * Z :=
  let e := Z.min (snd u) (snd v) in (fst u * 2^(snd u - e) + fst v * 2^(snd v - e), e).
Definition vneg (v : Z * Z) : Z * Z := (- fst v, snd v).
Definition vcmp (u v : Z * Z) : comparison := fst (vadd u (vneg v)) ?= 0.
Definition zof (t : ty) : fsz := match t with TF32 => FS | _ => FD end.
Definition fround (r : rmode) (z : fsz) (x : Z) : Z :=
  match fval z x with Some v => if 0 <=? snd v then x else fenc z (rint r v, 0) | None => x end.
Definition fpu_z : FpuOps := fun f s t args =>
  let z := zof s in
  let v x := fval z x in
  let lift2 op := match args with
                  | [x; y] => match v x, v y with Some a, Some b => Some (fenc z (op a b)) | _, _ => Some (fqnan z) end
                  | _ => None end in
  match f, args with
  | FAdd, _ => lift2 vadd
  | FSub, _ => lift2 (fun a b => vadd a (vneg b))
  | FMul, _ => lift2 vmul
  | FNeg, [x] => Some (fnegate z x)
  | FFma, [x; y; w] => match v x, v y, v w with
                       | Some a, Some b, Some d => Some (fenc z (vadd (vmul a b) d)) | _, _, _ => Some (fqnan z) end
  | FSIToFP, [x] => Some (fenc (zof t) (sgn (tsize s) x, 0))
  | FUIToFP, [x] => Some (fenc (zof t) (x, 0))
  | FExt, [x] | FTrunc, [x] => match v x with Some a => Some (fenc (zof t) a) | None => Some (fqnan (zof t)) end
  | FFloor, [x] => Some (fround RDN z x)
  | FCeil, [x] => Some (fround RUP z x)
  | FRound, [x] => Some (fround RMM z x)
  | FToSI, [x] => match v x with
                  | Some a => if (imin (tsize t) true <=? rint RTZ a) && (rint RTZ a <=? imax (tsize t) true) then Some (rint RTZ a) else None
                  | None => None end
  | FToUI, [x] => match v x with
                  | Some a => if (imin (tsize t) false <=? rint RTZ a) && (rint RTZ a <=? imax (tsize t) false) then Some (rint RTZ a) else None
                  | None => None end
  | FCmp p, [x; y] => match v x, v y with
                      | Some a, Some b => Some (match vcmp a b with Eq => if (p =? 1) || (p =? 5) then 1 else 0
                                                | Lt => if (p =? 4) || (p =? 5) then 1 else 0 | Gt => 0 end)
                      | _, _ => Some 0 end
  | _, _ => None
  end.

Lemma rquot_exact : forall r k d, 0 < d -> rquot r (k * d) d = k.
Proof.
  intros r k d D. destruct r; cbn [rquot].
  - rewrite Z.div_mul, Z.mod_mul by lia. destruct (2 * 0 <? d) eqn:E; lia.
  - apply Z.quot_mul. lia.
  - apply Z.div_mul. lia.
  - rewrite <- Z.mul_opp_l, Z.div_mul by lia. lia.
  - rewrite Z.sgn_mul, (Z.sgn_pos d), Z.mul_1_r by lia. rewrite Z.abs_mul, (Z.abs_eq d) by lia.
    replace ((2 * (Z.abs k * d) + d) / (2 * d)) with (Z.abs k); [lia|].
    apply Z.div_unique with (r := d); lia.
Qed.
Lemma fexp_of : forall z s b m, 0 <= s <= 1 -> 0 <= b < 2^(fwid z - 1 - fman z) -> 0 <= m < 2^fman z ->
  let x := s * 2^(fwid z - 1) + (b * 2^fman z + m) in
  inr (fwid z) x /\ fexp z x = b /\ x mod 2^fman z = m /\ signof (fwid z) x = s.
Proof.
  intros z s b m S B M x. unfold x, fexp, signof. destruct z; cbn [fwid fman] in *;
  [change (2^(32-1)) with 2147483648; change (2^(32-1-23)) with 256 in *; change (2^23) with 8388608 in *|
   change (2^(64-1)) with 9223372036854775808; change (2^(64-1-52)) with 2048 in *; change (2^52) with 4503599627370496 in *];
  (split; [split; [lia|] |split; [|split]]);
  [change (2^32) with 4294967296; lia|..|change (2^64) with 18446744073709551616; lia| | |]; clear x; lia.
Qed.
Lemma fenc_int : forall z k, Z.abs k <= 2^fman z -> inr (fwid z) (fenc z (k, 0)) /\
  exists v, fval z (fenc z (k, 0)) = Some v /\ forall r, rint r v = k.
Proof.
  intros z k K. unfold fenc. destruct (Z.eqb_spec k 0) as [->|N0].
  { split; [destruct z; split; cbn [fwid]; lia|]. destruct z; eexists; (split; [reflexivity|]); intros []; reflexivity. }
  set (a := Z.abs k) in *. assert (A : 0 < a) by lia. set (L := Z.log2 a).
  pose proof (Z.log2_nonneg a) as L0. fold L in L0. pose proof (Z.log2_spec a A) as LS. fold L in LS.
  assert (FM : 0 < fman z) by (destruct z; cbn; lia).
  assert (LM : L <= fman z). { unfold L. rewrite <- (Z.log2_pow2 (fman z)) by lia. apply Z.log2_le_mono. exact K. }
  assert (Q : Z.max (L - fman z + 0) (femin z) = L - fman z). { unfold femin. destruct z; cbn [fman fbias] in *; lia. }
  rewrite Q. replace (L - fman z <=? 0) with true by lia. replace (0 - (L - fman z)) with (fman z - L) by lia.
  assert (SG : 2^fman z <= a * 2^(fman z - L) < 2^(fman z + 1)).
  { destruct LS as [LA LB]. rewrite Z.pow_succ_r in LB by lia. assert (P : 2^fman z = 2^L * 2^(fman z - L)) by (rewrite <- Z.pow_add_r by lia; f_equal; lia).
    rewrite Z.pow_add_r by lia. rewrite P. pose proof (pow2_pos (fman z - L) ltac:(lia)). nia. }
  destruct (Z.eqb_spec (a * 2^(fman z - L)) (2^(fman z + 1))) as [EQ|_]; [lia|].
  replace (a * 2^(fman z - L) <? 2^fman z) with false by lia.
  set (sg := a * 2^(fman z - L)) in *.
  assert (B : L - fman z - femin z + 1 = L + fbias z) by (unfold femin; lia). rewrite B.
  assert (BB : 0 < L + fbias z < 2^(fwid z - 1 - fman z) - 1 /\ L + fbias z < fbias z * 2 + 1).
  { destruct z; cbn [fwid fman fbias] in *; [change (2^(32-1-23)) with 256|change (2^(64-1-52)) with 2048]; lia. }
  destruct BB as [BB B2]. replace (fbias z * 2 + 1 <=? L + fbias z) with false by lia.
  assert (MM : sg mod 2^fman z = sg - 2^fman z).
  { symmetry. rewrite Z.pow_add_r in SG by lia. apply Z.mod_unique with (q := 1); lia. }
  rewrite MM.
  set (sb := if k <? 0 then 1 else 0).
  replace (if k <? 0 then 2^(fwid z - 1) else 0) with (sb * 2^(fwid z - 1)) by (unfold sb; destruct (k <? 0); lia).
  destruct (fexp_of z sb (L + fbias z) (sg - 2^fman z)) as (I & FE & FMD & FS).
  { unfold sb. destruct (k <? 0); lia. } { lia. } { rewrite Z.pow_add_r in SG by lia. lia. }
  split; [exact I|]. unfold fval. rewrite FE, FMD, FS.
  destruct (Z.eqb_spec (L + fbias z) (2^(fwid z - 1 - fman z) - 1)); [lia|].
  destruct (Z.eqb_spec (L + fbias z) 0); [lia|].
  eexists. split; [reflexivity|]. intro r. unfold rint. cbn [fst snd].
  assert (EE : L + fbias z - (2^(fwid z - 1 - fman z - 1) - 1) - fman z = L - fman z).
  { destruct z; cbn [fwid fman fbias]; [change (2^(32-1-23-1)) with 128|change (2^(64-1-52-1)) with 1024]; lia. }
  rewrite EE. replace (2^fman z + (sg - 2^fman z)) with sg by lia.
  assert (NK : (if sb =? 0 then sg else - sg) = k * 2^(fman z - L)).
  { unfold sb, sg, a. destruct (Z.ltb_spec k 0); cbn [Z.eqb]; [rewrite Z.abs_neq by lia|rewrite Z.abs_eq by lia]; lia. }
  rewrite NK. destruct (Z.leb_spec 0 (L - fman z)).
  - assert (L = fman z) by lia. replace (fman z - L) with 0 by lia. replace (L - fman z) with 0 by lia. rewrite Z.pow_0_r. lia.
  - replace (- (L - fman z)) with (fman z - L) by lia. apply rquot_exact. apply pow2_pos. lia.
Qed.
(** Rounding a value with a fractional part stays below 2^fman. *)
Lemma rint_small : forall z x v r, fval z x = Some v -> snd v < 0 -> inr (fwid z) x -> Z.abs (rint r v) <= 2^fman z.
Proof.
  intros z x v r E S X. unfold fval in E. destruct (fexp z x =? _); [discriminate|].
  assert (N : Z.abs (fst v) < 2^(fman z + 1)).
  { injection E as <-. cbn [fst]. assert (FM : 0 < fman z) by (destruct z; cbn; lia). pose proof (pow2_pos (fman z) ltac:(lia)).
    pose proof (Z.mod_pos_bound x (2^fman z) ltac:(lia)). rewrite Z.pow_add_r by lia.
    destruct (fexp z x =? 0), (signof (fwid z) x =? 0); lia. }
  clear E. destruct v as [n e]. cbn [fst snd] in *. unfold rint. cbn [fst snd]. destruct (Z.leb_spec 0 e); [lia|].
  assert (D : 2 <= 2^(-e)) by (change 2 with (2^1) at 1; apply Z.pow_le_mono_r; lia).
  set (d := 2^(-e)) in *. clearbody d. assert (FM : 0 < fman z) by (destruct z; cbn; lia).
  rewrite Z.pow_add_r in N by lia. pose proof (pow2_pos (fman z) ltac:(lia)) as P. set (M := 2^fman z) in *. clearbody M.
  change (2^1) with 2 in N.
  assert (QB : forall y, Z.abs y < M * 2 -> - M <= y / d < M).
  { intros y Y. split; [apply Z.div_le_lower_bound; nia|apply Z.div_lt_upper_bound; nia]. }
  destruct r; cbn [rquot].
  - pose proof (QB n N). pose proof (Z.div_mod n d ltac:(lia)). pose proof (Z.mod_pos_bound n d ltac:(lia)).
    destruct (2 * (n mod d) <? d); [lia|]. destruct (d <? 2 * (n mod d)); [lia|]. destruct (Z.even (n / d)); lia.
  - assert (Z.abs (Z.quot n d) <= M); [|lia]. rewrite Z.quot_div by lia. rewrite (Z.abs_eq d), (Z.sgn_pos d), Z.mul_1_r by lia.
    pose proof (QB (Z.abs n) ltac:(lia)). pose proof (Z.div_pos (Z.abs n) d ltac:(lia) ltac:(lia)).
    destruct (Z.sgn_spec n) as [[? ->]|[[? ->]|[? ->]]]; lia.
  - pose proof (QB n N). lia.
  - pose proof (QB (-n) ltac:(lia)). lia.
  - assert (0 <= (2 * Z.abs n + d) / (2 * d) <= M).
    { split; [apply Z.div_pos; lia|]. assert ((2 * Z.abs n + d) / (2 * d) < M + 1); [|lia]. apply Z.div_lt_upper_bound; nia. }
    destruct (Z.sgn_spec n) as [[? ->]|[[? ->]|[? ->]]]; lia.
Qed.
Lemma fpu_z_conv : @fpu_conv fpu_z.
Proof.
  split.
  - intros w sg z x I. destruct sg; unfold fpu_op, fpu_z; destruct z; reflexivity.
  - intros op r z x O I. exists (fround r z x). split.
    { unfold fpu_op, fpu_z. cbn in O. destruct O as [O|[O|[O|[]]]]; injection O as <- <-; destruct z; reflexivity. }
    unfold fround. destruct (fval z x) as [v|] eqn:V; [|auto].
    destruct (Z.leb_spec 0 (snd v)) as [P|P].
    + split; [exact I|]. rewrite V. exists v. split; [reflexivity|]. intro r'. unfold rint. destruct (Z.leb_spec 0 (snd v)); [reflexivity|lia].
    + destruct (fenc_int z (rint r v) (rint_small z x v r V P I)) as (J & v' & FV & RV). split; [exact J|]. exists v'. auto.
Qed.
