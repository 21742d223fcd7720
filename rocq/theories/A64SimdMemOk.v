(** The AArch64 structure loads and stores do what the manual says. *)

From Coq Require Import ZArith Lia ZifyBool List Bool.
From Verif Require Import Bits IR Facet Dsl Rv64Spec Rv64Sim Rv64Arith Rv64Mem X86Spec X86Arith X86Sse X86SseSpec X86SseVec.
From Verif Require Import A64Base A64Simd A64SimdMem A64 A64Spec A64Arith A64Sim A64Dp A64Mem A64Sys A64SimdSpec A64SimdMemSpec A64SimdVec A64SimdEval A64SimdInt.
Import ListNotations.
Open Scope Z_scope.
Ltac Zify.zify_post_hook ::= Z.div_mod_to_equations.

(** What the decoder guarantees, and the encodings that are not UNDEFINED. *)
Definition wf_memv (i : vinst) (o : mop) : bool :=
  okq (v_rd i) && okx (v_xn i) && negb (is_rzr (v_xn i)) && okx (v_xm i) &&
  match v_am i with VAM_SIMPLE => true | VAM_POST => negb (is_rzr (v_xm i)) || (v_off i =? esize (v_va i) / 8 * nmem i o) | VAM_OTHER => false end &&
  match kindof o with
  | KMulti => if linear_ls o then (1 <=? v_nreg i) && (v_nreg i <=? 4) else 2 <=? elems (v_va i)
  | KSingle => (0 <=? v_index i) && (v_index i <? 128 / esize (v_va i))
  | KRepl => true
  end.

(** ** Memory as elements *)
Lemma p256 : forall k, 0 <= k -> 256 ^ k = 2 ^ (8 * k).
Proof. intros. change 256 with (2 ^ 8). rewrite <- Z.pow_mul_r by lia. reflexivity. Qed.
Lemma rd_app : forall p q m a, rd_mem m a (p + q) = rd_mem m a p + rd_mem m (a + Z.of_nat p) q * 2 ^ (8 * Z.of_nat p).
Proof.
  intros p q m a. induction q as [|q IH].
  - rewrite Nat.add_0_r. cbn [rd_mem]. lia.
  - rewrite Nat.add_succ_r. cbn [rd_mem]. rewrite IH, Nat2Z.inj_add, !p256 by lia.
    rewrite Z.mul_add_distr_l, Z.pow_add_r, Z.add_assoc by lia. ring.
Qed.
Lemma rd_vec : forall k m a n, 0 < k -> rd_mem m a (Z.to_nat (k * Z.of_nat n)) = vec (8 * k) (fun e => rd_mem m (a + k * e) (Z.to_nat k)) n.
Proof.
  intros k m a n K0. induction n as [|n IH].
  - rewrite Z.mul_0_r. reflexivity.
  - cbn [vec]. rewrite <- IH. replace (Z.to_nat (k * Z.of_nat (S n))) with (Z.to_nat (k * Z.of_nat n) + Z.to_nat k)%nat by lia.
    rewrite rd_app, Z2Nat.id by lia. do 2 f_equal. f_equal; lia.
Qed.
Definition wrs (m : bytes) (a k : Z) (f : Z -> Z) (n : Z) : bytes := fold_left (fun m j => wr_mem m (a + k * j) (Z.to_nat k) (f j)) (upto n) m.
Lemma upto_S : forall n, upto (Z.of_nat (S n)) = upto (Z.of_nat n) ++ [Z.of_nat n].
Proof. intros. unfold upto. rewrite !Nat2Z.id, seq_S, map_app. reflexivity. Qed.
Lemma wrs_0 : forall m a k f, wrs m a k f 0 = m.
Proof. reflexivity. Qed.
Lemma wrs_S : forall m a k f n, wrs m a k f (Z.of_nat (S n)) = wr_mem (wrs m a k f (Z.of_nat n)) (a + k * Z.of_nat n) (Z.to_nat k) (f (Z.of_nat n)).
Proof. intros. unfold wrs. rewrite upto_S, fold_left_app. reflexivity. Qed.
Lemma byte_div : forall v j q k, 0 <= j -> 0 <= k -> v / 256 ^ (j + k) = v / 256 ^ k / 256 ^ j -> q = v / 256 ^ k -> (v / 256 ^ (j + k)) mod 256 = (q / 256 ^ j) mod 256.
Proof. intros v j q k J K0 E ->. rewrite E. reflexivity. Qed.
Lemma wrs_vec : forall m a k f n x, 0 < k -> k * Z.of_nat n <= 2 ^ 63 -> (forall j, 0 <= j < Z.of_nat n -> inr (8 * k) (f j)) ->
  wrs m a k f (Z.of_nat n) x = wr_mem m a (Z.to_nat (k * Z.of_nat n)) (vec (8 * k) f n) x.
Proof.
  intros m a k f n x K0. induction n as [|n IH]; intros L I.
  - rewrite Z.mul_0_r. change (Z.of_nat 0) with 0. rewrite wrs_0. unfold wr_mem. change U with trunc.
    pose proof (trunc_range 64 (x - a) ltac:(lia)) as T. change (Z.of_nat (Z.to_nat 0)) with 0. destruct (Z.ltb_spec (trunc 64 (x - a)) 0); [unfold inr in T; lia|reflexivity].
  - rewrite wrs_S. unfold wr_mem at 1. rewrite IH by (intros; try apply I; lia). unfold wr_mem. change U with trunc.
    pose proof (trunc_range 64 (x - a) ltac:(lia)) as T. set (d := trunc 64 (x - a)) in *.
    destruct ((0 <=? x) && (x <? 2 ^ 64)) eqn:X; [|rewrite <- !andb_assoc, X, !andb_false_r; reflexivity].
    rewrite <- !andb_assoc, X, !andb_true_r. rewrite !Z2Nat.id by lia.
    assert (D' : trunc 64 (x - (a + k * Z.of_nat n)) = if d <? k * Z.of_nat n then d - k * Z.of_nat n + 2 ^ 64 else d - k * Z.of_nat n).
    { replace (x - (a + k * Z.of_nat n)) with ((x - a) - k * Z.of_nat n) by lia. rewrite <- (trunc_sub_l 64 (x - a)) by lia. fold d. clearbody d.
      assert (KN : 0 <= k * Z.of_nat n <= 2 ^ 63) by nia. set (q := k * Z.of_nat n) in *. clearbody q. unfold trunc, inr in *.
      change (2 ^ 64) with 18446744073709551616 in *. change (2 ^ 63) with 9223372036854775808 in *. clear - T KN. destruct (d <? q) eqn:Q; lia. }
    rewrite D'. assert (Q0 : 0 <= vec (8 * k) f n < 2 ^ (8 * k * Z.of_nat n)) by (apply vec_inr; [lia|intros; apply I; lia]).
    pose proof (I (Z.of_nat n) ltac:(lia)) as IN. cbn [vec]. set (lo := vec (8 * k) f n) in *. set (hi := f (Z.of_nat n)) in *.
    rewrite Nat2Z.inj_succ, Z.mul_succ_r in L |- *. unfold inr in T.
    destruct (Z.ltb_spec d (k * Z.of_nat n)) as [Q|Q].
    + replace (d - k * Z.of_nat n + 2 ^ 64 <? k) with false by (change (2 ^ 64) with 18446744073709551616; change (2 ^ 63) with 9223372036854775808 in L; lia).
      replace (d <? k * Z.of_nat n + k) with true by lia. rewrite !p256 by lia.
      replace (8 * k * Z.of_nat n) with (8 * d + (8 + (8 * (k * Z.of_nat n) - 8 * d - 8))) by nia. rewrite Z.pow_add_r, (Z.pow_add_r 2 8) by nia.
      set (r := 2 ^ (8 * (k * Z.of_nat n) - 8 * d - 8)). replace (lo + hi * (2 ^ (8 * d) * (2 ^ 8 * r))) with (lo + (hi * (2 ^ 8 * r)) * 2 ^ (8 * d)) by ring.
      rewrite Z.div_add by (pose proof (pow2_pos (8 * d)); lia). change (2 ^ 8) with 256. replace (hi * (256 * r)) with ((hi * r) * 256) by ring. rewrite Z_mod_plus_full. reflexivity.
    + replace (d <? k * Z.of_nat n + k) with (d - k * Z.of_nat n <? k) by lia. destruct (Z.ltb_spec (d - k * Z.of_nat n) k); [|reflexivity].
      assert (DN : 0 <= k * Z.of_nat n) by nia. rewrite !p256 by lia. replace (8 * d) with (8 * k * Z.of_nat n + 8 * (d - k * Z.of_nat n)) by lia.
      rewrite Z.pow_add_r by lia. rewrite <- Z.div_div by (pose proof (pow2_pos (8 * k * Z.of_nat n)); pose proof (pow2_pos (8 * (d - k * Z.of_nat n))); lia).
      rewrite Z.div_add, (Z.div_small lo) by (pose proof (pow2_pos (8 * k * Z.of_nat n)); lia). reflexivity.
Qed.
Lemma wrs_app : forall m a k f p q, wrs m a k f (Z.of_nat p + Z.of_nat q) = wrs (wrs m a k f (Z.of_nat p)) (a + k * Z.of_nat p) k (fun j => f (Z.of_nat p + j)) (Z.of_nat q).
Proof.
  intros m a k f p q. induction q as [|q IH].
  - rewrite Z.add_0_r. change (Z.of_nat 0) with 0. rewrite wrs_0. reflexivity.
  - replace (Z.of_nat p + Z.of_nat (S q)) with (Z.of_nat (S (p + q))) by lia. rewrite !wrs_S, <- IH, Nat2Z.inj_add, Z.mul_add_distr_l, Z.add_assoc. reflexivity.
Qed.

Section Mem.
Context `{FpuOps}.
Variable c : cenv.
Hypothesis HA : c_arch c = AArch64.
Variable i : vinst.
Variable g : kst.
Notation pvec := (pvec c).
Notation v := (v_va i).
Notation w := (esize v).
Notation N := (elems v).
Notation eb := (w / 8).
Notation base := (rdx g (v_xn i) 64).
Definition Me (j : Z) : Z := rd_mem (k_m g) (base + eb * j) (Z.to_nat eb).

Lemma eb_facts : w = 8 * eb /\ 1 <= eb <= 8 /\ tsize (TypeOf v false) / 8 = eb * N /\ tsize (ElemTypeOf v false) / 8 = eb /\ ElemTypeOf v false = TInt w /\ 1 <= N <= 16 /\ eb * N <= 16.
Proof. destruct v; repeat split; first [reflexivity|cbn; lia]. Qed.
Lemma Me_inr : forall j, inr w (Me j).
Proof. intro j. destruct eb_facts as (A & B & _). pose proof (rd_mem_inr (k_m g) (base + eb * j) (Z.to_nat eb)) as R. rewrite Z2Nat.id in R by lia. rewrite A. exact R. Qed.
Lemma vreg_ok : forall j, okq (vreg i j) = true.
Proof. intro. unfold okq, vreg. lia. Qed.
Lemma vreg_ne : forall j k, 0 <= j < 4 -> 0 <= k < 4 -> j <> k -> (vreg i j =? vreg i k) = false.
Proof. intros. unfold vreg. lia. Qed.
Lemma pv_kv : forall g0 p vs e u, (forall vs', (forall x y, vs x = Some y -> vs' x = Some y) -> pv c vs' e u) -> kvals c g0 p vs e u.
Proof. intros g0 p vs e u P s rt (_ & _ & VS & _). apply (P (s_var s)); [exact VS|reflexivity]. Qed.
Lemma addr_ok : forall o, wf_memv i o = true -> exists a g1, SIMDLoadStoreAddr i = Some a /\ kbase i g o = Some g1 /\ k_m g1 = k_m g /\ k_q g1 = k_q g /\
  forall p rt l Q, K c g1 p (upd_var vs0 9 (V TPtr base)) rt l Q -> K c g p vs0 rt (a ++ l) Q.
Proof.
  intros o WF. unfold wf_memv in WF. repeat (apply andb_prop in WF; destruct WF as [WF ?]). apply negb_true_iff in H3.
  unfold SIMDLoadStoreAddr, kbase. destruct (v_am i); [| |discriminate].
  - do 2 eexists. split; [reflexivity|]. split; [reflexivity|]. split; [reflexivity|]. split; [reflexivity|]. intros p rt l Q T. cbn [app].
    eapply K_let; [apply kvals_ptr; assumption|exact T].
  - do 2 eexists. split; [reflexivity|]. split; [reflexivity|]. split; [destruct (v_xn i); reflexivity|]. split; [destruct (v_xn i); reflexivity|]. intros p rt l Q T. cbn [app].
    assert (OFF : kv c g p (upd_var vs0 9 (V TPtr base)) (match v_xm i with RZR => cI 64 (v_off i) | x => GetGp x false end) 64
                     (match v_xm i with RZR => trunc 64 (v_off i) | x => rdx g x 64 end)).
    { destruct (v_xm i) as [n| |]; [exact (kv_gp c g p _ (RX n) false H2)|apply kv_cI|exact (kv_gp c g p _ RSP false H2)]. }
    eapply K_let; [apply kvals_ptr; assumption|]. eapply K_setgp with (w := 64); [|lia| |assumption|reflexivity| |exact T].
    + eapply kv_bin; [exact (kv_gp c g p _ (v_xn i) false H4)|exact OFF|reflexivity].
    + cbn [bits]. apply trunc_range. lia.
    + cbn [bits]. change U with trunc. destruct (v_xm i); [reflexivity| |reflexivity]. cbn [is_rzr negb orb] in H1. apply Z.eqb_eq in H1. rewrite H1. apply trunc_add_r. lia.
Qed.

Lemma mptr_ok : forall g0 p vs k j, vs 9%nat = Some (V TPtr base) -> kvals c g0 p vs (mptr k j) (V TPtr (trunc 64 (base + k * j))).
Proof.
  intros g0 p vs k j V9. replace (trunc 64 (base + k * j)) with (trunc 64 (base + trunc 64 j * k)).
  - apply kvals_gep; [apply kvals_var; exact V9|apply kv_cI].
  - rewrite <- (trunc_add_r 64 _ (trunc 64 j * k)), trunc_mul_l, trunc_add_r by lia. f_equal; lia.
Qed.
Lemma K_mloade : forall g1 p vs rt j l Q, vs 9%nat = Some (V TPtr base) -> k_m g1 = k_m g ->
  K c g1 p (upd_var vs (mtmp j) (V (TInt w) (Me j))) rt l Q -> K c g1 p vs rt (mload (ElemTypeOf v false) j :: l) Q.
Proof.
  intros g1 p vs rt j l Q V9 GM T. destruct eb_facts as (A & B & C & D & E & F). unfold mload. rewrite D, E. eapply K_load; [apply mptr_ok; exact V9|].
  cbn [tsize]. rewrite GM, rd_mem_trunc. exact T.
Qed.
Lemma K_mload : forall g1 p vs rt j l Q, vs 9%nat = Some (V TPtr base) -> k_m g1 = k_m g ->
  K c g1 p (upd_var vs (mtmp j) (V (TVec N (TInt w)) (vec w (fun e => Me (j * N + e)) (Z.to_nat N)))) rt l Q -> K c g1 p vs rt (mload (TypeOf v false) j :: l) Q.
Proof.
  intros g1 p vs rt j l Q V9 GM T. destruct eb_facts as (A & B & C & D & E & F & G). unfold mload. eapply K_load; [apply mptr_ok; exact V9|].
  rewrite GM, rd_mem_trunc, C. rewrite <- (Z2Nat.id N) at 2 by lia. rewrite rd_vec by lia. rewrite ty_va.
  erewrite vec_ext; [rewrite <- A; exact T|]. intros k K0. unfold Me. f_equal; lia.
Qed.
Lemma ld_pvec : forall vs x j, vs x = Some (V (TVec N (TInt w)) (vec w (fun e => Me (j * N + e)) (Z.to_nat N))) -> pvec vs (vX x) N (TInt w) (fun e => Me (j * N + e)).
Proof. intros vs x j E. split; [apply pv_var; exact E|]. intros. apply Me_inr. Qed.
Lemma K_mset : forall j e n f f' g0 p vs rt l Q, (forall vs', (forall x y, vs x = Some y -> vs' x = Some y) -> pvec vs' e n (TInt w) f) -> 0 <= n -> w * n <= 128 ->
  (forall k, 0 <= k < n -> f k = f' k) -> K c (wrq g0 (vreg i j) (out w n f')) p vs rt l Q -> K c g0 p vs rt (mset i j e :: l) Q.
Proof.
  intros j e n f f' g0 p vs rt l Q P N0 W E T. pose proof (es_pos v) as WP. eapply (K_setq c HA).
  - apply pv_kv. intros vs' M. apply (P vs' M).
  - apply vreg_ok.
  - cbn [tsize]. apply vec_128; try lia. intros k K0. apply (P vs ltac:(auto)). exact K0.
  - unfold out in T. erewrite vec_ext; [exact T|]. intros k K0. cbn [tsize]. cbn beta. rewrite <- E by lia. symmetry. apply trunc_small. apply (P vs ltac:(auto)). lia.
Qed.

(** ** Loads *)
Definition goalm (o : mop) : Prop := match kmemv i g o with Some g' => vok c (lift_mem i o) g g' | None => True end.
Lemma load_goal : forall o b, wf_memv i o = true -> is_store o = false -> mem_body i o = Some b ->
  (forall g1 p rt l Q, k_m g1 = k_m g -> k_q g1 = k_q g ->
    (forall vs, K c (fold_left (fun g0 r => wrq g0 (vreg i r) (ldval i g o r)) (upto (nregs i o)) g1) p vs rt l Q) ->
    K c g1 p (upd_var vs0 9 (V TPtr base)) rt (b ++ l) Q) -> goalm o.
Proof.
  intros o b WF ST B T. unfold goalm, kmemv, lift_mem. destruct (addr_ok o WF) as (a & g1 & EA & EB & GM & GQ & T0). rewrite EA, EB, B, ST.
  eexists. split; [reflexivity|]. intros p rt l' Q C. rewrite <- app_assoc. apply T0. apply T; [exact GM|exact GQ|exact C].
Qed.
Ltac ups := unfold upd_var; reflexivity.
Ltac rdm M := apply ld_pvec; apply M; ups.
Lemma ldl_step : forall (j : Z) g1 p vs rt l Q, vs 9%nat = Some (V TPtr base) -> k_m g1 = k_m g ->
  (forall vs', vs' 9%nat = Some (V TPtr base) -> K c (wrq g1 (vreg i j) (out w N (fun e => Me (j * N + e)))) p vs' rt l Q) -> (0 <= j < 4) ->
  K c g1 p vs rt (mload (TypeOf v false) j :: mset i j (vX (mtmp j)) :: l) Q.
Proof.
  intros j g1 p vs rt l Q V9 GM T J. destruct eb_facts as (A & B & C & D & E & F & G). apply K_mload; [exact V9|exact GM|].
  eapply (K_mset j _ N (fun e => Me (j * N + e))).
  - intros vs' M. apply ld_pvec. apply M. unfold upd_var. rewrite Nat.eqb_refl. reflexivity.
  - lia.
  - pose proof (es_el v). lia.
  - intros k K0. reflexivity.
  - apply T. unfold upd_var. destruct (Nat.eqb_spec (mtmp j) 9); [unfold mtmp in *; lia|exact V9].
Qed.
Lemma ok_LD1 : wf_memv i V_LD1 = true -> goalm V_LD1.
Proof.
  intro WF. assert (NR : v_nreg i = 1 \/ v_nreg i = 2 \/ v_nreg i = 3 \/ v_nreg i = 4).
  { unfold wf_memv in WF. apply andb_prop in WF. destruct WF as [_ WF]. cbn [kindof linear_ls] in WF. lia. }
  eapply load_goal; [exact WF|reflexivity|reflexivity|]. intros g1 p rt l Q GM GQ T. cbn [nregs] in T. unfold ldval in T. cbn [kindof pos linear_ls] in T. unfold pos in T. cbn [kindof linear_ls] in T.
  destruct NR as [E|[E|[E|E]]]; rewrite E in *; cbn [flat_map zseq app upto fold_left map seq Z.to_nat Pos.to_nat Pos.iter_op Nat.add Z.of_nat Pos.of_succ_nat Pos.succ] in *;
  change (zseq 1) with [0]; change (zseq 2) with [0; 1]; change (zseq 3) with [0; 1; 2]; change (zseq 4) with [0; 1; 2; 3]; cbn [flat_map app];
  repeat (apply ldl_step; [first [reflexivity|assumption]|exact GM| |lia]; intros); apply T.
Qed.
Ltac lists := change (zseq 1) with [0]; change (zseq 2) with [0; 1]; change (zseq 3) with [0; 1; 2]; change (zseq 4) with [0; 1; 2; 3]; cbn [flat_map map app].
Ltac ustep T := change (upto 1) with [0] in T; change (upto 2) with [0; 1] in T; change (upto 3) with [0; 1; 2] in T; change (upto 4) with [0; 1; 2; 3] in T; cbn [fold_left] in T.
Lemma tmp_9 : forall (vs : nat -> option rv) j u, 0 <= j -> vs 9%nat = Some (V TPtr base) -> upd_var vs (mtmp j) u 9%nat = Some (V TPtr base).
Proof. intros vs j u J V9. unfold upd_var. destruct (Nat.eqb_spec (mtmp j) 9); [unfold mtmp in *; lia|exact V9]. Qed.
Lemma tmp_eq : forall (vs : nat -> option rv) j u, upd_var vs (mtmp j) u (mtmp j) = Some u.
Proof. intros. unfold upd_var. rewrite Nat.eqb_refl. reflexivity. Qed.
Lemma n2w : 2 <= N -> 0 <= N /\ w * N <= 128 /\ 0 <= w /\ 0 <= tsize (TInt w).
Proof. intro. pose proof (es_el v). pose proof (es_pos v). cbn [tsize]. lia. Qed.
Lemma ok_LD2 : wf_memv i V_LD2 = true -> goalm V_LD2.
Proof.
  intro WF. assert (N2 : 2 <= N). { unfold wf_memv in WF. apply andb_prop in WF. destruct WF as [_ WF]. cbn [kindof linear_ls] in WF. lia. }
  destruct (n2w N2) as (N0 & NW & W0 & W1).
  eapply load_goal; [exact WF|reflexivity|reflexivity|]. intros g1 p rt l Q GM GQ T. cbn [nregs] in T. unfold ldval, pos in T. cbn [kindof linear_ls nregs] in T. ustep T. lists.
  apply K_mload; [reflexivity|exact GM|]. apply K_mload; [reflexivity|exact GM|]. rewrite ne_elems.
  eapply (K_mset 0 _ N (fun e => Me (2 * e + 0))); [| exact N0|exact NW| |eapply (K_mset 1 _ N (fun e => Me (2 * e + 1))); [| exact N0|exact NW| |apply T]].
  - intros vs' M. eapply (psh_shuf c vs' _ (fun k => 2 * k + 0) N); [reflexivity|rdm M|rdm M|exact W1|exact N0|].
    intros k K0. split; [lia|]. cbn beta. destruct (Z.ltb_spec (2 * k + 0) N); f_equal; lia.
  - intros k K0. unfold Me. do 2 f_equal; lia.
  - intros vs' M. eapply (psh_shuf c vs' _ (fun k => 2 * k + 1) N); [reflexivity|rdm M|rdm M|exact W1|exact N0|].
    intros k K0. split; [lia|]. cbn beta. destruct (Z.ltb_spec (2 * k + 1) N); f_equal; lia.
  - intros k K0. unfold Me. do 2 f_equal; lia.
Qed.
Lemma cat4_ok : forall vs a b d e f, pvec vs a N (TInt w) (fun k => f k) -> pvec vs b N (TInt w) (fun k => f (N + k)) -> pvec vs d N (TInt w) (fun k => f (2 * N + k)) -> pvec vs e N (TInt w) (fun k => f (3 * N + k)) ->
  pvec vs (Concat4 i a b d e) (4 * N) (TInt w) f.
Proof.
  intros vs a b d e f A B D E. pose proof (es_pos v) as WP. pose proof (el_pos v) as NP. unfold Concat4, Concat. rewrite ne_elems.
  eapply (psh_shuf c vs _ (fun k => 1 * k + 0) (4 * N) _ _ (2 * N) _ f (fun k => f (2 * N + k))); [reflexivity| | |cbn; lia|lia|].
  - eapply (psh_shuf c vs _ (fun k => 1 * k + 0) (2 * N)); [reflexivity|exact A|exact B|cbn; lia|lia|].
    intros k K0. split; [lia|]. cbn beta. destruct (Z.ltb_spec (1 * k + 0) N); f_equal; lia.
  - eapply (psh_shuf c vs _ (fun k => 1 * k + 0) (2 * N)); [reflexivity|exact D|exact E|cbn; lia|lia|].
    intros k K0. split; [lia|]. cbn beta. destruct (Z.ltb_spec (1 * k + 0) N); f_equal; lia.
  - intros k K0. split; [lia|]. cbn beta. destruct (Z.ltb_spec (1 * k + 0) (2 * N)); f_equal; lia.
Qed.
Lemma deint_ok : forall vs a m k f, pvec vs a (4 * N) (TInt w) f -> 0 <= k < m -> m <= 4 ->
  pvec vs (eShuf (linear (NumElem v) m k) a (eNull (TVec (4 * NumElem v) (ElemTypeOf v false)))) N (TInt w) (fun e => f (m * e + k)).
Proof.
  intros vs a m k f A K0 M4. pose proof (es_pos v) as WP. pose proof (el_pos v) as NP. destruct eb_facts as (_ & _ & _ & _ & ET & _). rewrite ne_elems, ET.
  eapply (psh_shuf c vs _ (fun e => m * e + k) N _ _ (4 * N) _ f (fun _ => 0)); [reflexivity|exact A|apply pvec_null; cbn; lia|cbn; lia|lia|].
  intros e E0. split; [nia|]. replace (m * e + k <? 4 * N) with true by nia. reflexivity.
Qed.
Lemma ok_LD4 : wf_memv i V_LD4 = true -> goalm V_LD4.
Proof.
  intro WF. assert (N2 : 2 <= N). { unfold wf_memv in WF. apply andb_prop in WF. destruct WF as [_ WF]. cbn [kindof linear_ls] in WF. lia. }
  destruct (n2w N2) as (N0 & NW & W0 & W1).
  eapply load_goal; [exact WF|reflexivity|reflexivity|]. intros g1 p rt l Q GM GQ T. cbn [nregs] in T. unfold ldval, pos in T. cbn [kindof linear_ls nregs] in T. ustep T. lists.
  do 4 (apply K_mload; [reflexivity|exact GM|]).
  set (vs1 := upd_var _ _ _).
  assert (C4 : forall vs', (forall x y, vs1 x = Some y -> vs' x = Some y) ->
    pvec vs' (Concat4 i (vX (mtmp 0)) (vX (mtmp 1)) (vX (mtmp 2)) (vX (mtmp 3))) (4 * N) (TInt w) Me).
  { intros vs' M. apply cat4_ok.
    - eapply pvec_ext; [apply (ld_pvec vs' (mtmp 0) 0); apply M; reflexivity|exact N0|]. intros k K0. cbn beta. f_equal; lia.
    - eapply pvec_ext; [apply (ld_pvec vs' (mtmp 1) 1); apply M; reflexivity|exact N0|]. intros k K0. cbn beta. f_equal; lia.
    - eapply pvec_ext; [apply (ld_pvec vs' (mtmp 2) 2); apply M; reflexivity|exact N0|]. intros k K0. cbn beta. f_equal; lia.
    - eapply pvec_ext; [apply (ld_pvec vs' (mtmp 3) 3); apply M; reflexivity|exact N0|]. intros k K0. cbn beta. f_equal; lia. }
  do 4 (eapply K_mset; [intros vs' M; apply deint_ok; [apply C4; exact M|lia|lia]|exact N0|exact NW|intros k K0; cbn beta; rewrite (Z.mul_comm 4); reflexivity|]).
  apply T.
Qed.
Lemma ok_LD3 : wf_memv i V_LD3 = true -> goalm V_LD3.
Proof.
  intro WF. assert (N2 : 2 <= N). { unfold wf_memv in WF. apply andb_prop in WF. destruct WF as [_ WF]. cbn [kindof linear_ls] in WF. lia. }
  destruct (n2w N2) as (N0 & NW & W0 & W1).
  eapply load_goal; [exact WF|reflexivity|reflexivity|]. intros g1 p rt l Q GM GQ T. cbn [nregs] in T. unfold ldval, pos in T. cbn [kindof linear_ls nregs] in T. ustep T. lists.
  do 3 (apply K_mload; [reflexivity|exact GM|]).
  set (vs1 := upd_var _ _ _).
  assert (C4 : forall vs', (forall x y, vs1 x = Some y -> vs' x = Some y) ->
    pvec vs' (Concat4 i (vX (mtmp 0)) (vX (mtmp 1)) (vX (mtmp 2)) (eNull (TypeOf v false))) (4 * N) (TInt w) (fun k => if k <? 3 * N then Me k else 0)).
  { intros vs' M. apply cat4_ok.
    - eapply pvec_ext; [apply (ld_pvec vs' (mtmp 0) 0); apply M; reflexivity|exact N0|]. intros k K0. replace (k <? 3 * N) with true by lia. f_equal; lia.
    - eapply pvec_ext; [apply (ld_pvec vs' (mtmp 1) 1); apply M; reflexivity|exact N0|]. intros k K0. replace (N + k <? 3 * N) with true by lia. f_equal; lia.
    - eapply pvec_ext; [apply (ld_pvec vs' (mtmp 2) 2); apply M; reflexivity|exact N0|]. intros k K0. replace (2 * N + k <? 3 * N) with true by lia. f_equal; lia.
    - rewrite ty_va. eapply pvec_ext; [apply pvec_null; exact W1|exact N0|]. intros k K0. replace (3 * N + k <? 3 * N) with false by lia. reflexivity. }
  do 3 (eapply K_mset; [intros vs' M; apply deint_ok; [apply C4; exact M|lia|lia]|exact N0|exact NW|
    intros k K0; cbn beta; match goal with |- (if ?b then _ else _) = _ => replace b with true by lia end; rewrite (Z.mul_comm 3); reflexivity|]).
  apply T.
Qed.
(** One element to every register. *)
Definition lane1 (q : Z) (j : Z) : Z := out w (128 / w) (fun e => if e =? v_index i then Me j else Ln w q e).
Lemma K_ins : forall j g1 p vs rt l Q, 0 <= j < 4 -> 0 <= v_index i < 128 / w -> vs (mtmp j) = Some (V (TInt w) (Me j)) ->
  (forall vs', (forall k y, 0 <= k -> vs (mtmp k) = Some y -> vs' (mtmp k) = Some y) -> K c (wrq g1 (vreg i j) (lane1 (k_q g1 (vreg i j)) j)) p vs' rt l Q) ->
  K c g1 p vs rt (emit [(2%nat, vreg i j, FacetOf (FullVa v) false)] (vreg i j) (E2 (OInsert (v_index i)) (vX 2) (vX (mtmp j))) ++ l) Q.
Proof.
  intros j g1 p vs rt l Q J IX VX T. destruct (full_facts v) as [FA FB]. pose proof (full_n i) as [F1 F2]. pose proof (es_pos v) as WP. unfold emit. cbn [map app rdv].
  eapply K_let; [apply kvals_rd; apply vreg_ok|]. change (SSet (VEC (vreg i j)) (E2 (OInsert (v_index i)) (vX 2) (vX (mtmp j)))) with (mset i j (E2 (OInsert (v_index i)) (vX 2) (vX (mtmp j)))).
  assert (NE : forall k, 0 <= k -> Nat.eqb 2 (mtmp k) = false) by (intros; unfold mtmp; apply Nat.eqb_neq; lia).
  eapply (K_mset j _ (128 / w) (fun e => if e =? v_index i then Me j else Ln w (k_q g1 (vreg i j)) e)); [|lia|lia| |apply T].
  - intros vs' M. eapply pvec_insert; [|apply pv_var; apply M; unfold upd_var; rewrite NE by lia; exact VX|cbn; lia|apply Me_inr|exact IX].
    eapply (rd_g c i vs' 2%nat); [apply M; reflexivity|exact FA|exact FB].
  - reflexivity.
  - intros k y K0 E. unfold upd_var. rewrite NE by lia. exact E.
Qed.
Lemma wrq_ne : forall g0 j k u, 0 <= j < 4 -> 0 <= k < 4 -> j <> k -> k_q (wrq g0 (vreg i j) u) (vreg i k) = k_q g0 (vreg i k).
Proof. intros g0 j k u J K0 NE. cbn [wrq k_q]. rewrite vreg_ne by (assumption || congruence). reflexivity. Qed.
Lemma single_ok : forall o m, wf_memv i o = true -> is_store o = false -> kindof o = KSingle -> nregs i o = m -> 1 <= m <= 4 ->
  mem_body i o = Some (map (mload (ElemTypeOf v false)) (zseq m) ++
          flat_map (fun j => emit [(2%nat, vreg i j, FacetOf (FullVa v) false)] (vreg i j) (E2 (OInsert (v_index i)) (vX 2) (vX (mtmp j)))) (zseq m)) -> goalm o.
Proof.
  intros o m WF ST KD NR M14 B.
  assert (IX : 0 <= v_index i < 128 / w). { unfold wf_memv in WF. apply andb_prop in WF. destruct WF as [_ WF]. rewrite KD in WF. lia. }
  eapply load_goal; [exact WF|exact ST|exact B|]. intros g1 p rt l Q GM GQ T. rewrite NR in T. unfold ldval, pos in T. rewrite KD in T.
  fold Me in T. change (fun g0 r => wrq g0 (vreg i r) _) with (fun g0 r => wrq g0 (vreg i r) (lane1 (k_q g (vreg i r)) r)) in T. rewrite <- GQ in T.
  assert (MC : m = 1 \/ m = 2 \/ m = 3 \/ m = 4) by lia.
  destruct MC as [E|[E|[E|E]]]; rewrite E in *; ustep T; lists; rewrite <- ?app_assoc; repeat (apply K_mloade; [reflexivity|exact GM|]).
  all: apply K_ins; [lia|exact IX|reflexivity|]; intros vs1 M1.
  all: repeat (apply K_ins; [lia|exact IX|repeat match goal with H : forall k y, _ -> _ -> _ = _ |- _ => apply H; [lia|]; clear H end; reflexivity|]; intros ? ?).
  all: rewrite ?wrq_ne by lia; apply T.
Qed.
Lemma repl_ok : forall o m, wf_memv i o = true -> is_store o = false -> kindof o = KRepl -> nregs i o = m -> 1 <= m <= 4 ->
  mem_body i o = Some (map (mload (ElemTypeOf v false)) (zseq m) ++ map (fun j => mset i j (Dup v (vX (mtmp j)))) (zseq m)) -> goalm o.
Proof.
  intros o m WF ST KD NR M14 B. pose proof (es_pos v) as WP. pose proof (el_pos v) as NP. pose proof (es_el v) as WN.
  eapply load_goal; [exact WF|exact ST|exact B|]. intros g1 p rt l Q GM GQ T. rewrite NR in T. unfold ldval, pos in T. rewrite KD in T.
  assert (MC : m = 1 \/ m = 2 \/ m = 3 \/ m = 4) by lia.
  destruct MC as [E|[E|[E|E]]]; rewrite E in *; ustep T; lists; repeat (apply K_mloade; [reflexivity|exact GM|]).
  all: repeat (eapply K_mset; [intros vs' M; unfold Dup; rewrite ne_elems; eapply pvec_splatv; [apply pv_var; apply M; reflexivity|lia|apply Me_inr]|lia|exact WN|reflexivity|]).
  all: apply T.
Qed.

(** ** Stores *)
Lemma store_goal : forall o b, wf_memv i o = true -> is_store o = true -> mem_body i o = Some b ->
  (forall g1 p rt l Q, k_m g1 = k_m g -> k_q g1 = k_q g ->
    (forall vs, K c (wrm g1 (wrs (k_m g) base eb (stval i g o) (nmem i o))) p vs rt l Q) ->
    K c g1 p (upd_var vs0 9 (V TPtr base)) rt (b ++ l) Q) -> goalm o.
Proof.
  intros o b WF ST B T. unfold goalm, kmemv, lift_mem. destruct (addr_ok o WF) as (a & g1 & EA & EB & GM & GQ & T0). rewrite EA, EB, B, ST.
  eexists. split; [reflexivity|]. intros p rt l' Q C. rewrite <- app_assoc. apply T0. apply T; [exact GM|exact GQ|exact C].
Qed.
Lemma K_mread : forall j f g1 p vs rt l Q, k_q g1 = k_q g -> K c g1 p (upd_var vs (mtmp j) (get_facet (Some (k_q g (vreg i j))) f)) rt l Q -> K c g1 p vs rt (mread i f j :: l) Q.
Proof. intros j f g1 p vs rt l Q GQ T. unfold mread, rdv. eapply K_let; [apply kvals_rd; apply vreg_ok|]. rewrite GQ. exact T. Qed.
Lemma K_mst : forall e ptr n F s0 g1 p vs rt l Q, 0 <= n -> eb * n <= 64 -> kvals c g1 p vs ptr (V TPtr (trunc 64 (base + s0))) ->
  (forall vs', (forall x y, vs x = Some y -> vs' x = Some y) -> pvec vs' e n (TInt w) F) ->
  K c (wrm g1 (wrs (k_m g1) (base + s0) eb F n)) p vs rt l Q -> K c g1 p vs rt (SStore e ptr :: l) Q.
Proof.
  intros e ptr n F s0 g1 p vs rt l Q N0 N64 EP P T. destruct eb_facts as (A & B & _).
  assert (TS : Z.to_nat (tsize (TVec n (TInt w)) / 8) = Z.to_nat (eb * n)). { cbn [tsize]. f_equal. rewrite A at 1. replace (n * (8 * eb)) with (eb * n * 8) by lia. rewrite Z.div_mul by lia. reflexivity. }
  eapply K_store with (t := TVec n (TInt w)) (z := vec w F (Z.to_nat n)) (v := vec w F (Z.to_nat n)); [apply pv_kv; intros vs' M; apply (P vs' M)|exact EP|rewrite TS; nia|reflexivity|].
  rewrite TS. eapply K_weaken; [|exact T]. repeat split; auto. cbn [wrm k_m]. intro x. rewrite wr_mem_trunc. symmetry.
  assert (IN : forall j, 0 <= j < n -> inr w (F j)) by (apply (P vs); auto).
  rewrite <- (Z2Nat.id n N0) at 1. rewrite wrs_vec; [|lia|rewrite Z2Nat.id by lia; change (2 ^ 63) with 9223372036854775808; lia|intros j J; rewrite <- A; apply IN; lia].
  rewrite Z2Nat.id, <- A by lia. reflexivity.
Qed.
Lemma wrs_ext : forall m a a' k f f' n, 0 <= n -> a = a' -> (forall j, 0 <= j < n -> f j = f' j) -> wrs m a k f n = wrs m a' k f' n.
Proof.
  intros m a a' k f f' n N0 <- E. rewrite <- (Z2Nat.id n N0) in *. induction (Z.to_nat n) as [|n0 IH]; [reflexivity|].
  rewrite !wrs_S, IH by (intros; apply E; lia). rewrite E by lia. reflexivity.
Qed.
Lemma wrs_cat : forall m a k f p q, 0 <= p -> 0 <= q -> wrs (wrs m a k f p) (a + k * p) k (fun j => f (p + j)) q = wrs m a k f (p + q).
Proof. intros m a k f p q P Q. rewrite <- (Z2Nat.id p P), <- (Z2Nat.id q Q). symmetry. apply wrs_app. Qed.
Lemma K_st0 : forall F g1 p vs rt l Q, k_m g1 = k_m g -> K c (wrm g1 (wrs (k_m g) base eb F (0 * N))) p vs rt l Q -> K c g1 p vs rt l Q.
Proof. intros F g1 p vs rt l Q GM T. eapply K_weaken; [|exact T]. rewrite Z.mul_0_l, wrs_0. repeat split; auto. cbn [wrm k_m]. intro. rewrite GM. reflexivity. Qed.
Lemma st_step : forall F j e g1 p vs rt l Q, 0 <= j -> vs 9%nat = Some (V TPtr base) ->
  (forall vs', (forall x y, vs x = Some y -> vs' x = Some y) -> pvec vs' e N (TInt w) (fun k => F (j * N + k))) ->
  K c (wrm g1 (wrs (k_m g) base eb F ((j + 1) * N))) p vs rt l Q -> K c (wrm g1 (wrs (k_m g) base eb F (j * N))) p vs rt (mstore (TypeOf v false) e j :: l) Q.
Proof.
  intros F j e g1 p vs rt l Q J V9 P T. destruct eb_facts as (A & B & C & D & E & NP & G).
  unfold mstore. rewrite C. eapply (K_mst e _ N (fun k => F (j * N + k)) (eb * N * j)); [lia|lia|apply mptr_ok; exact V9|exact P|].
  cbn [wrm k_m k_x k_sp k_f k_q k_tp k_pc]. replace (eb * N * j) with (eb * (j * N)) by lia. rewrite wrs_cat by nia.
  replace (j * N + N) with ((j + 1) * N) by lia. exact T.
Qed.
Lemma rd_pvec : forall vs x j, vs x = Some (get_facet (Some (k_q g (vreg i j))) (FacetOf v false)) -> pvec vs (vX x) N (TInt w) (Ln w (k_q g (vreg i j))).
Proof. intros vs x j E. eapply (rd_g c i vs x); [exact E|reflexivity|reflexivity]. Qed.
Lemma ok_ST1 : wf_memv i V_ST1 = true -> goalm V_ST1.
Proof.
  intro WF. assert (NR : v_nreg i = 1 \/ v_nreg i = 2 \/ v_nreg i = 3 \/ v_nreg i = 4).
  { unfold wf_memv in WF. apply andb_prop in WF. destruct WF as [_ WF]. cbn [kindof linear_ls] in WF. lia. }
  pose proof (el_pos v) as NP.
  eapply store_goal; [exact WF|reflexivity|cbn [mem_body]; replace ((v_nreg i <? 1) || (4 <? v_nreg i)) with false by lia; reflexivity|].
  intros g1 p rt l Q GM GQ T. unfold nmem in T. cbn [kindof nregs] in T.
  assert (SV : forall r k, 0 <= k < N -> Ln w (k_q g (vreg i r)) k = stval i g V_ST1 (r * N + k)).
  { intros r k K0. unfold stval, src. cbn [kindof linear_ls]. rewrite Z.div_add_l, Z.div_small, Z.add_0_r by lia. rewrite (Z.add_comm (r * N)), Z_mod_plus_full, (Z.mod_small k) by lia. reflexivity. }
  destruct NR as [E|[E|[E|E]]]; rewrite E in *; lists; rewrite <- ?app_assoc; repeat (apply K_mread; [exact GQ|]); eapply K_st0; [exact GM| |exact GM| |exact GM| |exact GM|].
  all: repeat (apply st_step; [lia|reflexivity|intros vs' M; eapply pvec_ext; [apply rd_pvec; apply M; reflexivity|lia|apply SV]|]).
  all: apply T.
Qed.
Lemma ok_ST2 : wf_memv i V_ST2 = true -> goalm V_ST2.
Proof.
  intro WF. assert (N2 : 2 <= N). { unfold wf_memv in WF. apply andb_prop in WF. destruct WF as [_ WF]. cbn [kindof linear_ls] in WF. lia. }
  destruct (n2w N2) as (N0 & NW & W0 & W1). destruct (zip_mask i N2) as (Z1 & Z2 & EN).
  eapply store_goal; [exact WF|reflexivity|reflexivity|]. intros g1 p rt l Q GM GQ T. unfold nmem in T. cbn [kindof nregs] in T.
  lists. rewrite ne_elems, Z1, Z2. repeat (apply K_mread; [exact GQ|]). eapply K_st0; [exact GM|].
  assert (SV : forall j, stval i g V_ST2 j = if Z.even j then Ln w (k_q g (vreg i 0)) (j / 2) else Ln w (k_q g (vreg i 1)) (j / 2)).
  { intro j. unfold stval, src. cbn [kindof linear_ls nregs]. rewrite Zeven_mod. destruct (Zeq_bool (j mod 2) 0) eqn:Q0.
    - apply Zeq_bool_eq in Q0. rewrite Q0. reflexivity.
    - apply Zeq_bool_neq in Q0. replace (j mod 2) with 1 by lia. reflexivity. }
  apply (st_step _ 0); [lia|reflexivity| |apply (st_step _ 1); [lia|reflexivity| |apply T]].
  - intros vs' M. eapply (psh_shuf c vs'); [reflexivity|apply (rd_pvec vs' (mtmp 0) 0); apply M; reflexivity|apply (rd_pvec vs' (mtmp 1) 1); apply M; reflexivity|exact W1|exact N0|].
    intros k K0. cbn beta. rewrite Z.mul_0_l, Z.add_0_l, SV. destruct (Z.even k).
    + split; [lia|]. replace (k / 2 <? N) with true by lia. reflexivity.
    + split; [lia|]. replace (N + k / 2 <? N) with false by lia. f_equal. lia.
  - intros vs' M. eapply (psh_shuf c vs'); [reflexivity|apply (rd_pvec vs' (mtmp 0) 0); apply M; reflexivity|apply (rd_pvec vs' (mtmp 1) 1); apply M; reflexivity|exact W1|exact N0|].
    intros k K0. cbn beta. rewrite Z.mul_1_l, SV, Z.even_add, (Zeven_mod N), EN. cbn [Zeq_bool Z.compare]. destruct (Z.even k); cbn [Bool.eqb].
    + split; [lia|]. match goal with |- (if ?b then _ else _) = _ => replace b with true by lia end. f_equal. lia.
    + split; [lia|]. match goal with |- (if ?b then _ else _) = _ => replace b with false by lia end. f_equal. lia.
Qed.
Lemma st_masks : xymask i = map (fun k => if Z.even k then k / 2 else N + k / 2) (zseq (2 * N)) /\
  xyzmask i = map (fun k => if k mod 3 =? 2 then 2 * N + k / 3 else 2 * (k / 3) + k mod 3) (zseq (3 * N)) /\
  xyzwmask i = map (fun k => if k mod 4 <? 2 then 2 * (k / 4) + k mod 4 else 2 * N + (2 * (k / 4) + (k mod 4 - 2))) (zseq (4 * N)).
Proof. unfold xymask, xyzmask, xyzwmask. destruct v; repeat split; vm_compute; reflexivity. Qed.
Lemma xy_ok : forall vs a b F G, pvec vs a N (TInt w) F -> pvec vs b N (TInt w) G ->
  pvec vs (eShuf (xymask i) a b) (2 * N) (TInt w) (fun k => if Z.even k then F (k / 2) else G (k / 2)).
Proof.
  intros vs a b F G A B. pose proof (es_pos v) as WP. pose proof (el_pos v) as NP. destruct st_masks as (E & _). rewrite E.
  eapply (psh_shuf c vs); [reflexivity|exact A|exact B|cbn; lia|lia|]. intros k K0. cbn beta. destruct (Z.even k).
  - split; [lia|]. replace (k / 2 <? N) with true by lia. reflexivity.
  - split; [lia|]. replace (N + k / 2 <? N) with false by lia. f_equal. lia.
Qed.
Lemma ptr9 : forall g1 p vs, vs 9%nat = Some (V TPtr base) -> kvals c g1 p vs (vX 9) (V TPtr (trunc 64 (base + 0))).
Proof. intros g1 p vs V9. rewrite Z.add_0_r, trunc_small by (apply rdx_inr; lia). apply kvals_var. exact V9. Qed.
Lemma ev2 : forall q, Z.even (2 * q) = true /\ Z.even (2 * q + 1) = false /\ 2 * q / 2 = q /\ (2 * q + 1) / 2 = q.
Proof. intro q. rewrite Z.even_add, Z.even_mul. split; [reflexivity|]. split; [reflexivity|]. lia. Qed.
Lemma ok_ST3 : wf_memv i V_ST3 = true -> goalm V_ST3.
Proof.
  intro WF. assert (N2 : 2 <= N). { unfold wf_memv in WF. apply andb_prop in WF. destruct WF as [_ WF]. cbn [kindof linear_ls] in WF. lia. }
  destruct (n2w N2) as (N0 & NW & W0 & W1). destruct st_masks as (_ & MK & _). destruct eb_facts as (A & B & _ & _ & _ & NP & G).
  eapply store_goal; [exact WF|reflexivity|reflexivity|]. intros g1 p rt l Q GM GQ T. unfold nmem in T. cbn [kindof nregs] in T.
  lists. repeat (apply K_mread; [exact GQ|]).
  eapply (K_mst _ _ (3 * N) (stval i g V_ST3) 0); [lia|lia|apply ptr9; reflexivity| |rewrite Z.add_0_r, GM; apply T].
  intros vs' M. rewrite MK. eapply (psh_shuf c vs'); [reflexivity| | |exact W1|lia|].
  - apply xy_ok; [apply (rd_pvec vs' (mtmp 0) 0); apply M; reflexivity|apply (rd_pvec vs' (mtmp 1) 1); apply M; reflexivity].
  - unfold Concat. rewrite ne_elems. eapply (psh_shuf c vs' _ (fun k => 1 * k + 0) (2 * N) _ _ N _ _ (fun _ => 0) (fun k => if k <? N then Ln w (k_q g (vreg i 2)) k else 0)); [reflexivity| | |exact W1|lia|].
    + apply (rd_pvec vs' (mtmp 2) 2); apply M; reflexivity.
    + rewrite ty_va. apply pvec_null. exact W1.
    + intros k K0. split; [lia|]. cbn beta. rewrite Z.add_0_r, Z.mul_1_l. reflexivity.
  - intros k K0. cbn beta. unfold stval, src. cbn [kindof linear_ls nregs]. destruct (ev2 (k / 3)) as (E1_ & E2_ & E3_ & E4_).
    assert (R3 : k mod 3 = 0 \/ k mod 3 = 1 \/ k mod 3 = 2) by lia. destruct R3 as [R|[R|R]]; rewrite R; cbn [Z.eqb Pos.eqb].
    + split; [lia|]. replace (2 * (k / 3) + 0) with (2 * (k / 3)) by lia. replace (2 * (k / 3) <? 2 * N) with true by lia. rewrite E1_, E3_. reflexivity.
    + split; [lia|]. replace (2 * (k / 3) + 1 <? 2 * N) with true by lia. rewrite E2_, E4_. reflexivity.
    + split; [lia|]. replace (2 * N + k / 3 <? 2 * N) with false by lia. replace (2 * N + k / 3 - 2 * N) with (k / 3) by lia. replace (k / 3 <? N) with true by lia. reflexivity.
Qed.
Lemma ok_ST4 : wf_memv i V_ST4 = true -> goalm V_ST4.
Proof.
  intro WF. assert (N2 : 2 <= N). { unfold wf_memv in WF. apply andb_prop in WF. destruct WF as [_ WF]. cbn [kindof linear_ls] in WF. lia. }
  destruct (n2w N2) as (N0 & NW & W0 & W1). destruct st_masks as (_ & _ & MK). destruct eb_facts as (A & B & _ & _ & _ & NP & G).
  eapply store_goal; [exact WF|reflexivity|reflexivity|]. intros g1 p rt l Q GM GQ T. unfold nmem in T. cbn [kindof nregs] in T.
  lists. repeat (apply K_mread; [exact GQ|]).
  eapply (K_mst _ _ (4 * N) (stval i g V_ST4) 0); [lia|lia|apply ptr9; reflexivity| |rewrite Z.add_0_r, GM; apply T].
  intros vs' M. rewrite MK. eapply (psh_shuf c vs'); [reflexivity| | |exact W1|lia|].
  - apply xy_ok; [apply (rd_pvec vs' (mtmp 0) 0); apply M; reflexivity|apply (rd_pvec vs' (mtmp 1) 1); apply M; reflexivity].
  - apply xy_ok; [apply (rd_pvec vs' (mtmp 2) 2); apply M; reflexivity|apply (rd_pvec vs' (mtmp 3) 3); apply M; reflexivity].
  - intros k K0. cbn beta. unfold stval, src. cbn [kindof linear_ls nregs]. destruct (ev2 (k / 4)) as (E1_ & E2_ & E3_ & E4_).
    assert (R4 : k mod 4 = 0 \/ k mod 4 = 1 \/ k mod 4 = 2 \/ k mod 4 = 3) by lia. destruct R4 as [R|[R|[R|R]]]; rewrite R; cbn [Z.ltb Z.compare Pos.compare Pos.compare_cont].
    + split; [lia|]. replace (2 * (k / 4) + 0) with (2 * (k / 4)) by lia. replace (2 * (k / 4) <? 2 * N) with true by lia. rewrite E1_, E3_. reflexivity.
    + split; [lia|]. replace (2 * (k / 4) + 1 <? 2 * N) with true by lia. rewrite E2_, E4_. reflexivity.
    + split; [lia|]. match goal with |- (if ?b then _ else _) = _ => replace b with false by lia end. replace (2 * N + (2 * (k / 4) + (2 - 2)) - 2 * N) with (2 * (k / 4)) by lia. rewrite E1_, E3_. reflexivity.
    + split; [lia|]. match goal with |- (if ?b then _ else _) = _ => replace b with false by lia end. replace (2 * N + (2 * (k / 4) + (3 - 2)) - 2 * N) with (2 * (k / 4) + 1) by lia. rewrite E2_, E4_. reflexivity.
Qed.
Lemma ste_step : forall F j e g1 p vs rt l Q, 0 <= j -> vs 9%nat = Some (V TPtr base) -> inr w (F j) ->
  (forall vs', (forall x y, vs x = Some y -> vs' x = Some y) -> pv c vs' e (V (TInt w) (F j))) ->
  K c (wrm g1 (wrs (k_m g) base eb F (j + 1))) p vs rt l Q -> K c (wrm g1 (wrs (k_m g) base eb F j)) p vs rt (mstore (ElemTypeOf v false) e j :: l) Q.
Proof.
  intros F j e g1 p vs rt l Q J V9 I P T. destruct eb_facts as (A & B & C & D & E & NP & G). unfold mstore. rewrite D.
  assert (TS : Z.to_nat (tsize (TInt w) / 8) = Z.to_nat eb) by reflexivity.
  eapply K_store with (t := TInt w) (v := F j); [apply pv_kv; exact P|apply mptr_ok; exact V9|rewrite TS; lia|reflexivity|]. rewrite TS.
  eapply K_weaken; [|exact T]. repeat split; auto. cbn [wrm k_m]. intro x. rewrite wr_mem_trunc. symmetry.
  rewrite <- (Z2Nat.id j J). replace (Z.of_nat (Z.to_nat j) + 1) with (Z.of_nat (S (Z.to_nat j))) by lia. rewrite wrs_S. reflexivity.
Qed.
Lemma singlest_ok : forall o m, wf_memv i o = true -> is_store o = true -> kindof o = KSingle -> nregs i o = m -> 1 <= m <= 4 ->
  mem_body i o = Some (map (mread i (FacetOf (FullVa v) false)) (zseq m) ++ map (fun j => mstore (ElemTypeOf v false) (E1 (OExtract (v_index i)) (vX (mtmp j))) j) (zseq m)) -> goalm o.
Proof.
  intros o m WF ST KD NR M14 B. pose proof (es_pos v) as WP. destruct (full_facts v) as [FA FB].
  assert (IX : 0 <= v_index i < 128 / w). { unfold wf_memv in WF. apply andb_prop in WF. destruct WF as [_ WF]. rewrite KD in WF. lia. }
  eapply store_goal; [exact WF|exact ST|exact B|]. intros g1 p rt l Q GM GQ T. unfold nmem in T. rewrite KD, NR in T.
  assert (SV : forall j, stval i g o j = Ln w (k_q g (vreg i j)) (v_index i)). { intro j. unfold stval, src. rewrite KD. reflexivity. }
  assert (MC : m = 1 \/ m = 2 \/ m = 3 \/ m = 4) by lia.
  assert (T0 : forall vs l0, K c (wrm g1 (wrs (k_m g) base eb (stval i g o) 0)) p vs rt l0 Q -> K c g1 p vs rt l0 Q) by (intros; eapply K_st0; eassumption).
  destruct MC as [E|[E|[E|E]]]; rewrite E in *; lists; rewrite <- ?app_assoc; repeat (apply K_mread; [exact GQ|]); apply T0.
  all: repeat (apply ste_step; [lia|reflexivity|rewrite SV; apply Ln_inr; lia|intros vs' M; rewrite SV; apply (pv_extract c vs' (v_index i) _ (128 / w) (TInt w)); [eapply (rd_g c i vs'); [apply M; reflexivity|exact FA|exact FB]|cbn; lia|exact IX]|]).
  all: apply T.
Qed.
Theorem memv_ok : forall o, wf_memv i o = true -> exists g', kmemv i g o = Some g' /\ vok c (lift_mem i o) g g'.
Proof.
  intros o WF. assert (GO : goalm o).
  { destruct o; first [apply ok_LD1|apply ok_LD2|apply ok_LD3|apply ok_LD4|apply ok_ST1|apply ok_ST2|apply ok_ST3|apply ok_ST4
      |eapply single_ok; [|reflexivity|reflexivity|reflexivity|cbn [nregs]; lia|reflexivity]|eapply singlest_ok; [|reflexivity|reflexivity|reflexivity|cbn [nregs]; lia|reflexivity]
      |eapply repl_ok; [|reflexivity|reflexivity|reflexivity|cbn [nregs]; lia|reflexivity]]; exact WF. }
  unfold goalm in GO. destruct (kmemv i g o) as [g'|] eqn:E; [exists g'; auto|]. exfalso.
  unfold kmemv, kbase in E. unfold wf_memv in WF. destruct (v_am i); [discriminate|discriminate|]. rewrite !andb_false_r in WF. discriminate.
Qed.
End Mem.
