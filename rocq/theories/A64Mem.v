(** AArch64 loads and stores. *)

From Coq Require Import ZArith Lia ZifyBool List Bool.
From Verif Require Import Bits IR Facet Dsl Rv64Spec Rv64Sim Rv64Arith Rv64Mem X86Spec X86Arith A64 A64Spec A64Arith A64Sim A64Dp.
Import ListNotations.
Open Scope Z_scope.
Ltac Zify.zify_post_hook ::= Z.div_mod_to_equations.

(** What the decoder guarantees about addressing modes ([k]: size of an element),
    and the encodings that are not CONSTRAINED UNPREDICTABLE. *)
Definition scale_ok (k amt : Z) : bool := (amt =? 0) || ((0 <=? amt) && (2^amt =? k)).
Definition wf_addr (k : Z) (i : ainst) : bool :=
  match a_mode i with
  | AM_LITERAL => true
  | AM_OFF_REG => okx (a_rn i) && negb (is_rzr (a_rn i)) && okx (a_rm i) && scale_ok k (a_amt i)
  | AM_OFF_EXT => okx (a_rn i) && negb (is_rzr (a_rn i)) && okx (a_rm i) && scale_ok k (a_lsl i) &&
                  match a_ext i with UXTW | SXTW => true | _ => false end
  | _ => okx (a_rn i) && negb (is_rzr (a_rn i))
  end.
Definition has_wb (i : ainst) : bool := match a_mode i with AM_PRE | AM_POST => true | _ => false end.
Definition xr_eqb (a b : xr) : bool :=
  match a, b with RX n, RX m => n =? m | RZR, RZR | RSP, RSP => true | _, _ => false end.
Definition wf_mem (i : ainst) : bool :=
  match a_op i with
  | A_LDR | A_LDXR | A_LDP | A_LDXP | A_STR | A_STXR | A_STP | A_STXP =>
    wf_addr (mem_w i / 8) i && (mem_w i <=? bits (a_w32 i)) && okx (a_rd i) && okx (a_rt2 i) && okx (a_rs i) &&
    match a_op i with
    | A_LDP | A_LDXP => is_rzr (a_rd i) || negb (xr_eqb (a_rd i) (a_rt2 i))
    | A_STR | A_STXR => negb (has_wb i && xr_eqb (a_rn i) (a_rd i))
    | A_STP | A_STXP => negb (has_wb i && (xr_eqb (a_rn i) (a_rd i) || xr_eqb (a_rn i) (a_rt2 i)))
    | _ => true
    end
  | A_LDR_FP | A_LDP_FP | A_STR_FP | A_STP_FP =>
    wf_addr (fsz_bytes (a_fsz i)) i && okq (a_vd i) && okq (a_vt2 i) &&
    match a_op i with A_LDP_FP => negb (a_vd i =? a_vt2 i) | _ => true end
  | _ => false
  end.

Lemma rd_mem_trunc : forall n m a, rd_mem m (trunc 64 a) n = rd_mem m a n.
Proof. intros. rewrite <- !load_rd. apply load_bytes_wrap. Qed.
Lemma wr_mem_trunc : forall n m a v x, wr_mem m (trunc 64 a) n v x = wr_mem m a n v x.
Proof. intros. unfold wr_mem. change U with trunc. rewrite trunc_sub_r by lia. reflexivity. Qed.
Lemma wr_mem_comm : forall m a n k u v x, (n <= 16)%nat -> k = Z.of_nat n ->
  wr_mem (wr_mem m (a + k) n u) a n v x = wr_mem (wr_mem m a n v) (a + k) n u x.
Proof.
  intros m a n k u v x N ->. unfold wr_mem. change U with trunc. unfold trunc.
  destruct (((x - a) mod 2^64 <? Z.of_nat n) && (0 <=? x) && (x <? 2^64)) eqn:A; [|reflexivity].
  replace ((x - (a + Z.of_nat n)) mod 2^64 <? Z.of_nat n) with false by lia. reflexivity.
Qed.

Section Mem.
Context `{FpuOps}.
Variable c : cenv.
Hypothesis HA : c_arch c = AArch64.
Variable cfg : acfg.
Notation kv := (kv c).
Notation kvals := (kvals c).
Notation lifts := (lifts c cfg).

Lemma K_vs : forall g p vs vs' rt l Q, (forall x v, vs' x = Some v -> vs x = Some v) -> K c g p vs' rt l Q -> K c g p vs rt l Q.
Proof. intros g p vs vs' rt l Q I T s (R & P & VS & RT). apply T. split; [exact R|]. split; [exact P|]. split; [|exact RT]. auto. Qed.
Lemma kvals_ptr : forall g p vs r, okx r = true -> is_rzr r = false -> kvals g p vs (GetPtr r) (V TPtr (rdx g r 64)).
Proof. intros g p vs r O N s rt (R & _). apply ev_rptr; auto. intros ->. discriminate N. Qed.
Lemma kvals_var : forall g p vs x v, vs x = Some v -> kvals g p vs (vX x) v.
Proof. intros g p vs x v E s rt (R & P & VS & RT). unfold ev, vX. cbn [eval leaf_val]. rewrite (VS _ _ E). reflexivity. Qed.
Lemma kvals_toptr : forall g p vs e z, kv g p vs e 64 z -> inr 64 z -> kvals g p vs (eToPtr e) (V TPtr z).
Proof. intros g p vs e z E Z0 s rt A. pose proof (E s rt A) as V. unfold val, ev in V. unfold ev, eToPtr. cbn [eval]. rewrite V. reflexivity. Qed.
Lemma kvals_gep : forall g p vs b a e z k, kvals g p vs b (V TPtr a) -> kv g p vs e 64 z ->
  kvals g p vs (aGep k b e) (V TPtr (trunc 64 (a + z * k))).
Proof.
  intros g p vs b a e z k B E s rt A. pose proof (B s rt A) as VB.
  assert (M : kv g p vs (eMul e (cI 64 k)) 64 (trunc 64 (z * trunc 64 k))) by (eapply kv_bin; [exact E|apply kv_cI|reflexivity]).
  pose proof (M s rt A) as VM. unfold val, ev in VM, VB. unfold ev, aGep. cbn [eval]. rewrite VB. fold (eMul e (cI 64 k)). rewrite VM. cbn [bind sem2 gep_sem].
  rewrite trunc_mul_r, trunc_add_r by lia. reflexivity.
Qed.

Variable i : ainst.
Variable g : kst.
Hypothesis PC : k_pc g = addr_pc_base c (a_start i).
Let p := PcConst (a_start i).
Let ad := kaddr i g.

Lemma off_ok : forall g0 k amt e z vs, okx (a_rn i) = true -> is_rzr (a_rn i) = false -> scale_ok k amt = true -> 0 < k ->
  kv g0 p vs e 64 (trunc 64 z) ->
  kvals g0 p vs (AddrOff k (k =? 1) (a_rn i) e amt) (V TPtr (trunc 64 (rdx g0 (a_rn i) 64 + z * 2^amt))).
Proof.
  intros g0 k amt e z vs ON NZ SC K0 E. unfold scale_ok in SC. unfold AddrOff.
  assert (VE : forall j x, kvals g0 p vs (aGep j (GetPtr (a_rn i)) e) (V TPtr (trunc 64 (rdx g0 (a_rn i) 64 + trunc 64 z * j))) ->
    j = x -> kvals g0 p vs (aGep j (GetPtr (a_rn i)) e) (V TPtr (trunc 64 (rdx g0 (a_rn i) 64 + z * x)))).
  { intros j x V Q. subst j. replace (trunc 64 (rdx g0 (a_rn i) 64 + z * x)) with (trunc 64 (rdx g0 (a_rn i) 64 + trunc 64 z * x)); [exact V|].
    rewrite <- (trunc_add_r 64 _ (trunc 64 z * x)), trunc_mul_l, trunc_add_r by lia. reflexivity. }
  destruct (Z.eqb_spec amt 0) as [->|NA].
  - destruct (Z.eqb_spec k 1) as [->|NK]; cbn [andb negb].
    + apply VE; [|reflexivity]. apply kvals_gep; [apply kvals_ptr; assumption|exact E].
    + rewrite Z.pow_0_r, Z.mul_1_r. apply kvals_toptr; [|apply trunc_range; lia].
      eapply kv_bin; [exact (kv_gp c g0 p vs (a_rn i) false ON)|exact E|]. cbn [ibin bits]. f_equal. apply trunc_add_r. lia.
  - cbn [andb]. apply VE; [|lia]. apply kvals_gep; [apply kvals_ptr; assumption|exact E].
Qed.

Lemma K_addr : forall k, 0 < k -> wf_addr k i = true -> exists pre ptr, Addr k (k =? 1) i = Some (pre, ptr) /\
  forall rt l Q, K c (kwb i g) p (upd_var vs0 4 (V TPtr ad)) rt l Q -> K c g p vs0 rt ((pre ++ [SLet 4 ptr]) ++ l) Q.
Proof.
  intros k K0 WF. unfold wf_addr in WF. unfold Addr, ad, kaddr, kwb. change U with trunc.
  assert (WB : okx (a_rn i) = true -> forall vs rt l Q, vs 63%nat = None -> K c (wrx g (a_rn i) 64 (rdx g (a_rn i) 64 + a_imm i)) p vs rt l Q ->
    K c g p vs rt (SetGp (a_rn i) (eAdd (GetGp (a_rn i) false) (cI 64 (a_imm i))) ++ l) Q).
  { intros ON vs rt l Q N63 T. eapply K_setgp with (w := 64); [|lia| |exact ON|exact N63| |exact T].
    - eapply kv_bin; [exact (kv_gp c g p vs (a_rn i) false ON)|apply kv_cI|reflexivity].
    - cbn [bits]. apply trunc_range. lia.
    - cbn [bits]. change U with trunc. apply trunc_add_r. lia. }
  assert (SM : inr 64 (rdx g (a_rn i) 64)) by (apply rdx_inr; lia).
  destruct (a_mode i) eqn:EM.
  - (* simple *) apply andb_prop in WF. destruct WF as [ON NZ]. apply negb_true_iff in NZ.
    do 2 eexists. split; [reflexivity|]. intros rt l Q T. cbn [app]. eapply K_let; [apply kvals_ptr; assumption|].
    rewrite (trunc_small 64 _ SM) in T. exact T.
  - (* immediate offset *) apply andb_prop in WF. destruct WF as [ON NZ]. apply negb_true_iff in NZ.
    do 2 eexists. split; [reflexivity|]. intros rt l Q T. cbn [app]. eapply K_let; [apply kvals_gep; [apply kvals_ptr; assumption|apply kv_cI]|].
    rewrite Z.mul_1_r, trunc_add_r by lia. exact T.
  - (* register offset *) apply andb_prop in WF. destruct WF as [WF SC]. apply andb_prop in WF. destruct WF as [WF OM].
    apply andb_prop in WF. destruct WF as [ON NZ]. apply negb_true_iff in NZ.
    do 2 eexists. split; [reflexivity|]. intros rt l Q T. cbn [app]. eapply K_let; [apply off_ok; [assumption..|]|exact T].
    eapply kv_eq; [|exact (kv_gp c g p vs0 (a_rm i) false OM)]. cbn [bits]. symmetry. apply trunc_small. apply rdx_inr. lia.
  - (* extended register offset *) apply andb_prop in WF. destruct WF as [WF EO]. apply andb_prop in WF. destruct WF as [WF SC]. apply andb_prop in WF. destruct WF as [WF OM].
    apply andb_prop in WF. destruct WF as [ON NZ]. apply negb_true_iff in NZ.
    assert (R32 : rdx g (a_rm i) 32 = trunc 32 (rdx g (a_rm i) 64)).
    { unfold rdx. change U with trunc. rewrite trunc_trunc_le by lia. reflexivity. }
    assert (I32' : inr 32 (rdx g (a_rm i) 32)) by (apply rdx_inr; lia).
    destruct (a_ext i) eqn:EE; try discriminate EO; (do 2 eexists; split; [reflexivity|]); intros rt l Q T; cbn [app];
    (eapply K_let; [apply off_ok; [assumption..|]|exact T]); cbn [ext_uns].
    + eapply kv_eq; [|eapply kv_zext; [exact (kv_gp c g p vs0 (a_rm i) true OM)|cbn; lia]]. cbn [bits]. change U with trunc.
      rewrite <- R32. symmetry. apply trunc_small. apply (inr_le 32); [lia|exact I32'].
    + eapply kv_eq; [|eapply kv_sext; [exact (kv_gp c g p vs0 (a_rm i) true OM)|cbn; lia|exact I32']]. cbn [bits]. rewrite R32.
      unfold sext. rewrite S_sgn. reflexivity.
  - (* pre-indexed *) apply andb_prop in WF. destruct WF as [ON NZ]. apply negb_true_iff in NZ.
    do 2 eexists. split; [reflexivity|]. intros rt l Q T. rewrite <- app_assoc. apply WB; [exact ON|reflexivity|].
    cbn [app]. eapply K_let; [apply kvals_ptr; assumption|]. eapply K_vs; [|exact T]. intros x v. unfold upd_var.
    destruct (Nat.eqb 4 x); [|discriminate]. intro E. injection E as <-. do 2 f_equal.
    destruct (a_rn i); [| discriminate NZ |]; unfold rdx, wrx; cbn [k_x k_sp]; rewrite ?Z.eqb_refl; change U with trunc;
    rewrite (trunc_trunc 64 (_ + _)) by lia; reflexivity.
  - (* post-indexed *) apply andb_prop in WF. destruct WF as [ON NZ]. apply negb_true_iff in NZ.
    do 2 eexists. split; [reflexivity|]. intros rt l Q T. cbn [app]. eapply K_let; [apply kvals_ptr; assumption|].
    rewrite <- app_assoc. apply WB; [exact ON|reflexivity|]. cbn [app]. eapply K_let; [apply kvals_var; reflexivity|].
    eapply K_vs; [|exact T]. intros x v. unfold upd_var. rewrite (trunc_small 64 _ SM). destruct (Nat.eqb 4 x); [auto|discriminate].
  - (* literal *) do 2 eexists. split; [reflexivity|]. intros rt l Q T. cbn [app]. eapply K_let; [|exact T].
    rewrite PC. change (trunc 64 (addr_pc_base c (a_start i) + a_off i)) with (U 64 (addr_pc_base c (a_start i) + a_off i)).
    change U with trunc. rewrite <- addr_pc_base_add. apply kvals_toptr; [apply kv_pc|apply addr_pc_base_inr].
Qed.

Lemma kwb_m : k_m (kwb i g) = k_m g.
Proof. unfold kwb. destruct (a_mode i), (a_rn i); reflexivity. Qed.
Lemma kwb_q : k_q (kwb i g) = k_q g.
Proof. unfold kwb. destruct (a_mode i), (a_rn i); reflexivity. Qed.
Lemma kwb_pc : k_pc (kwb i g) = k_pc g.
Proof. unfold kwb. destruct (a_mode i), (a_rn i); reflexivity. Qed.
Lemma kwb_rdx : forall r w, has_wb i && xr_eqb (a_rn i) r = false -> rdx (kwb i g) r w = rdx g r w.
Proof.
  intros r w N. unfold kwb, has_wb in *. destruct (a_mode i); try reflexivity; cbn [andb] in N; unfold rdx, wrx; destruct (a_rn i) as [a| |], r as [b| |]; cbn [xr_eqb k_x k_sp] in *;
  try reflexivity; try discriminate N; rewrite Z.eqb_sym, N; reflexivity.
Qed.
Lemma mem_end : forall g1 g2 vs rt, k_pc g2 = k_pc g -> kle g1 g2 ->
  K c g1 p vs rt [SPcConst (a_end i)] (kdone c (wrpc g2 (k_pc g + 4)) (PcConst (a_end i)) rt).
Proof. intros g1 g2 vs rt P L. rewrite <- P at 1. apply K_end; [rewrite P; exact PC|exact L]. Qed.

(** ** General registers *)
Let w := bits (a_w32 i).
Let n := ext_len (a_mext i) / 8.
Definition ldv (k : Z) : Z := let v := rd_mem (k_m g) (ad + k) (Z.to_nat n) in if ext_uns (a_mext i) then v else S_ (8 * n) v.
Lemma n_cases : mem_w i = 8 * n /\ (n = 1 \/ n = 2 \/ n = 4 \/ n = 8) /\ mem_w i / 8 = n /\ ext_len (a_mext i) = 8 * n.
Proof. unfold mem_w, n. rewrite ext_src_len. destruct (a_mext i); cbn; lia. Qed.
Lemma p2_ok : forall g0 vs k, vs 4%nat = Some (V TPtr ad) -> kvals g0 p vs (aGep k (vX 4) (cI 64 1)) (V TPtr (trunc 64 (ad + k))).
Proof.
  intros g0 vs k V4. replace (trunc 64 (ad + k)) with (trunc 64 (ad + trunc 64 1 * k)) by (change (trunc 64 1) with 1; f_equal; lia).
  apply kvals_gep; [apply kvals_var; exact V4|apply kv_cI].
Qed.
Lemma K_loadgp : forall (x : nat) rt0 ptr k g1 vs rt l Q, x <> 63%nat -> mem_w i <=? w = true -> okx rt0 = true -> vs 63%nat = None ->
  k_m g1 = k_m g -> kvals g1 p vs ptr (V TPtr (trunc 64 (ad + k))) ->
  (forall vs', vs' 63%nat = None -> (forall y v, y <> x -> vs y = Some v -> vs' y = Some v) -> K c (wrx g1 rt0 w (ldv k)) p vs' rt l Q) ->
  exists code, LoadGpr i x rt0 ptr = Some code /\ K c g1 p vs rt (code ++ l) Q.
Proof.
  intros x rt0 ptr k g1 vs rt l Q X63 MW OT N63 GM EP T. destruct n_cases as (MN & NC & _ & EL). pose proof (bits_pos (a_w32 i)) as WP. fold w in WP.
  unfold LoadGpr.
  set (v := rd_mem (k_m g) (ad + k) (Z.to_nat n)).
  assert (VI : inr (8 * n) v). { pose proof (rd_mem_inr (k_m g) (ad + k) (Z.to_nat n)) as RI. rewrite Z2Nat.id in RI by lia. exact RI. }
  assert (NB : Z.to_nat (tsize (TInt (mem_w i)) / 8) = Z.to_nat n) by (cbn [tsize]; rewrite MN; f_equal; lia).
  assert (VX : kv g1 p (upd_var vs x (V (TInt (mem_w i)) v)) (vX x) (8 * n) v).
  { apply kv_var. unfold upd_var. rewrite Nat.eqb_refl, MN. reflexivity. }
  destruct (kv_Extend c g1 p _ (8 * n) (a_w32 i) (vX x) v (a_mext i) 0 VX VI) as (e & Ee & Ve); [fold w; lia|lia|fold w; lia|]. fold w in Ve.
  rewrite Ee. eexists. split; [reflexivity|]. cbn [app]. eapply K_load; [exact EP|]. rewrite NB, GM, rd_mem_trunc. fold v.
  eapply K_setgp; [exact Ve|exact WP|apply extend_reg_inr; lia|exact OT| | |apply T].
  - unfold upd_var. destruct (Nat.eqb_spec x 63); [contradiction|exact N63].
  - unfold extend_reg, ldv. fold v. rewrite Z.sub_0_r, Z.pow_0_r, Z.mul_1_r, Z.min_l, EL by (fold w; lia).
    change U with trunc. rewrite (trunc_small (8 * n) v VI). reflexivity.
  - unfold upd_var. destruct (Nat.eqb_spec x 63); [contradiction|exact N63].
  - intros y u NY E. unfold upd_var. destruct (Nat.eqb_spec x y); [congruence|exact E].
Qed.
Lemma K_storegp : forall r ptr k g1 vs rt l Q, mem_w i <=? w = true -> okx r = true ->
  kvals g1 p vs ptr (V TPtr (trunc 64 (ad + k))) ->
  K c (wrm g1 (wr_mem (k_m g1) (ad + k) (Z.to_nat n) (rdx g1 r w))) p vs rt l Q ->
  K c g1 p vs rt (SStore (eTrunc (mem_w i) (GetGp r (a_w32 i))) ptr :: l) Q.
Proof.
  intros r ptr k g1 vs rt l Q MW OR EP T. destruct n_cases as (MN & NC & _ & EL). pose proof (bits_pos (a_w32 i)) as WP. fold w in WP.
  assert (NB : Z.to_nat (tsize (TInt (mem_w i)) / 8) = Z.to_nat n) by (cbn [tsize]; rewrite MN; f_equal; lia).
  eapply K_store with (t := TInt (mem_w i)) (v := rdx g1 r w) ; [|exact EP|rewrite NB; lia| |].
  - apply kv_vals. eapply kv_trunc; [apply kv_gp; exact OR|fold w; lia|apply rdx_inr; fold w; lia].
  - rewrite NB, MN, Z2Nat.id by lia. intros j J. fold w. apply byte_trunc; lia.
  - rewrite NB. eapply K_weaken; [|exact T]. repeat split; auto. cbn [wrm k_m]. intro x. apply wr_mem_trunc.
Qed.

Lemma xr_eqb_eq : forall a b, xr_eqb a b = true -> a = b.
Proof. intros [a| |] [b| |] E; cbn in E; try discriminate; try reflexivity. apply Z.eqb_eq in E. congruence. Qed.
Lemma wrx_swap : forall g0 a b w1 w2 u v, a <> b -> kle (wrx (wrx g0 b w2 v) a w1 u) (wrx (wrx g0 a w1 u) b w2 v).
Proof.
  intros g0 a b w1 w2 u v N. destruct a as [a| |], b as [b| |]; unfold wrx; repeat split; cbn [k_x k_sp k_f k_q k_tp k_m]; auto; try congruence.
  intros k _. destruct (Z.eqb_spec k a), (Z.eqb_spec k b); congruence.
Qed.
Lemma wrx_m : forall g0 r w0 v, k_m (wrx g0 r w0 v) = k_m g0.
Proof. intros. destruct r; reflexivity. Qed.
Lemma wrx_pc : forall g0 r w0 v, k_pc (wrx g0 r w0 v) = k_pc g0.
Proof. intros. destruct r; reflexivity. Qed.
Lemma ad_inr : trunc 64 (ad + 0) = ad.
Proof. rewrite Z.add_0_r. apply trunc_small. apply trunc_range. lia. Qed.

Theorem mem_gp_step : forall g', wf_mem i = true -> kmem i g = Some g' ->
  match a_op i with A_LDR | A_LDXR | A_LDP | A_LDXP | A_STR | A_STXR | A_STP | A_STXP => True | _ => False end ->
  lifts i g (wrpc g' (k_pc g + 4)).
Proof.
  intros g' WF S GP_. pose proof n_cases as (MN & NC & M8 & EL). pose proof (bits_pos (a_w32 i)) as WP. fold w in WP.
  assert (LOP : exists pre ptr body, LiftLoadStore i = oapp (pre ++ [SLet 4 ptr]) body /\
     (forall rt l Q, K c (kwb i g) p (upd_var vs0 4 (V TPtr ad)) rt l Q -> K c g p vs0 rt ((pre ++ [SLet 4 ptr]) ++ l) Q) /\
     body = let p2 := aGep n (vX 4) (cI 64 1) in
            let st_ r p := [SStore (eTrunc (mem_w i) (GetGp r (a_w32 i))) p] in
            match a_op i with
            | A_LDP | A_LDXP =>
              match LoadGpr i 5 (a_rt2 i) p2, LoadGpr i 6 (a_rd i) (vX 4) with Some a, Some b => Some (a ++ b) | _, _ => None end
            | A_LDR | A_LDXR => LoadGpr i 6 (a_rd i) (vX 4)
            | A_STP | A_STXP => Some (st_ (a_rt2 i) p2 ++ st_ (a_rd i) (vX 4))
            | A_STR | A_STXR => Some (st_ (a_rd i) (vX 4))
            | _ => None
            end).
  { unfold wf_mem in WF. assert (WA : wf_addr (mem_w i / 8) i = true).
    { destruct (a_op i); try contradiction; repeat (apply andb_prop in WF; destruct WF as [WF _]); exact WF. }
    rewrite M8 in WA. destruct (K_addr n ltac:(lia) WA) as (pre & ptr & EA & KA).
    exists pre, ptr. eexists. split; [|split; [exact KA|reflexivity]]. unfold LiftLoadStore. rewrite M8, EA. reflexivity. }
  destruct LOP as (pre & ptr & body & LL & KA & EB).
  unfold wf_mem in WF.
  assert (WF' : (mem_w i <=? w = true) /\ okx (a_rd i) = true /\ okx (a_rt2 i) = true /\ okx (a_rs i) = true /\
    match a_op i with
    | A_LDP | A_LDXP => is_rzr (a_rd i) || negb (xr_eqb (a_rd i) (a_rt2 i))
    | A_STR | A_STXR => negb (has_wb i && xr_eqb (a_rn i) (a_rd i))
    | A_STP | A_STXP => negb (has_wb i && (xr_eqb (a_rn i) (a_rd i) || xr_eqb (a_rn i) (a_rt2 i)))
    | _ => true
    end = true).
  { fold w in WF. destruct (a_op i); try contradiction; apply andb_prop in WF; destruct WF as [WF C1]; apply andb_prop in WF; destruct WF as [WF C2];
    apply andb_prop in WF; destruct WF as [WF C3]; apply andb_prop in WF; destruct WF as [WF C4]; apply andb_prop in WF; destruct WF as [WF C5]; auto. }
  clear WF. destruct WF' as (MW & OD & OT & OS & XC).
  pose proof kwb_m as WM. pose proof kwb_pc as WPC.
  (* loads *)
  assert (L1 : forall code, LoadGpr i 6 (a_rd i) (vX 4) = Some code -> forall g1 vs rt l Q, vs 63%nat = None -> vs 4%nat = Some (V TPtr ad) -> k_m g1 = k_m g ->
    (forall vs', K c (wrx g1 (a_rd i) w (ldv 0)) p vs' rt l Q) -> K c g1 p vs rt (code ++ l) Q).
  { intros code EC g1 vs rt l Q N63 N4 GM T.
    destruct (K_loadgp 6 (a_rd i) (vX 4) 0 g1 vs rt l Q ltac:(discriminate) MW OD N63 GM) as (code' & E' & K').
    - apply kvals_var. rewrite ad_inr. exact N4.
    - intros vs' _ _. apply T.
    - replace code with code' by congruence. exact K'. }
  assert (G1 : exists code, LoadGpr i 6 (a_rd i) (vX 4) = Some code).
  { destruct (K_loadgp 6 (a_rd i) (vX 4) 0 (kwb i g) (upd_var vs0 4 (V TPtr ad)) false [] (fun _ => True) ltac:(discriminate) MW OD eq_refl WM) as (code' & E' & K'); [|intros; intro s; exists s; auto|eauto].
    apply kvals_var. rewrite ad_inr. reflexivity. }
  assert (L2 : forall code, LoadGpr i 5 (a_rt2 i) (aGep n (vX 4) (cI 64 1)) = Some code -> forall g1 vs rt l Q, vs 63%nat = None -> vs 4%nat = Some (V TPtr ad) -> k_m g1 = k_m g ->
    (forall vs', vs' 63%nat = None -> vs' 4%nat = Some (V TPtr ad) -> K c (wrx g1 (a_rt2 i) w (ldv n)) p vs' rt l Q) -> K c g1 p vs rt (code ++ l) Q).
  { intros code EC g1 vs rt l Q N63 N4 GM T.
    destruct (K_loadgp 5 (a_rt2 i) (aGep n (vX 4) (cI 64 1)) n g1 vs rt l Q ltac:(discriminate) MW OT N63 GM) as (code' & E' & K').
    - apply p2_ok. exact N4.
    - intros vs' N63' I. apply T; [exact N63'|]. apply I; [discriminate|exact N4].
    - replace code with code' by congruence. exact K'. }
  assert (G2 : exists code, LoadGpr i 5 (a_rt2 i) (aGep n (vX 4) (cI 64 1)) = Some code).
  { destruct (K_loadgp 5 (a_rt2 i) (aGep n (vX 4) (cI 64 1)) n (kwb i g) (upd_var vs0 4 (V TPtr ad)) false [] (fun _ => True) ltac:(discriminate) MW OT eq_refl WM) as (code' & E' & K'); [|intros; intro s; exists s; auto|eauto].
    apply p2_ok. reflexivity. }
  (* stores *)
  assert (S1 : forall g1 vs rt l Q, vs 4%nat = Some (V TPtr ad) ->
    K c (wrm g1 (wr_mem (k_m g1) ad (Z.to_nat n) (rdx g1 (a_rd i) w))) p vs rt l Q ->
    K c g1 p vs rt (SStore (eTrunc (mem_w i) (GetGp (a_rd i) (a_w32 i))) (vX 4) :: l) Q).
  { intros g1 vs rt l Q N4 T. apply (K_storegp (a_rd i) (vX 4) 0); [exact MW|exact OD|apply kvals_var; rewrite ad_inr; exact N4|]. rewrite Z.add_0_r. exact T. }
  assert (S2 : forall g1 vs rt l Q, vs 4%nat = Some (V TPtr ad) ->
    K c (wrm g1 (wr_mem (k_m g1) (ad + n) (Z.to_nat n) (rdx g1 (a_rt2 i) w))) p vs rt l Q ->
    K c g1 p vs rt (SStore (eTrunc (mem_w i) (GetGp (a_rt2 i) (a_w32 i))) (aGep n (vX 4) (cI 64 1)) :: l) Q).
  { intros g1 vs rt l Q N4 T. apply (K_storegp (a_rt2 i) _ n); [exact MW|exact OT|apply p2_ok; exact N4|]. exact T. }
  assert (KS : forall g1 vs rt l Q, vs 63%nat = None -> K c (wrx g1 (a_rs i) 32 0) p vs rt l Q -> K c g1 p vs rt (SetGp (a_rs i) (cI w 0) ++ l) Q).
  { intros g1 vs rt l Q N63 T. eapply K_setgp; [apply kv_c, inr0; lia|exact WP|apply inr0; lia|exact OS|exact N63| |].
    - instantiate (1 := 0). symmetry. apply trunc_small, inr0. lia.
    - replace (wrx g1 (a_rs i) w 0) with (wrx g1 (a_rs i) 32 0); [exact T|]. unfold w. destruct (a_w32 i); reflexivity. }
  unfold kmem in S. cbv zeta in S. fold w n ad in S.
  change (if ext_uns (a_mext i) then rd_mem (k_m g) (ad + 0) (Z.to_nat n) else S_ (8 * n) (rd_mem (k_m g) (ad + 0) (Z.to_nat n))) with (ldv 0) in S.
  change (if ext_uns (a_mext i) then rd_mem (k_m g) (ad + n) (Z.to_nat n) else S_ (8 * n) (rd_mem (k_m g) (ad + n) (Z.to_nat n))) with (ldv n) in S.
  assert (HLD : forall b, LoadGpr i 6 (a_rd i) (vX 4) = Some b -> lift_op cfg i = go (Some ((pre ++ [SLet 4 ptr]) ++ b)) ->
    lifts i g (wrpc (wrx (kwb i g) (a_rd i) w (ldv 0)) (k_pc g + 4))).
  { intros b Eb LO. eapply lifts_go; [exact LO|]. intro rt. rewrite <- app_assoc. apply KA. eapply (L1 b Eb); [reflexivity|reflexivity|exact WM|].
    intro vs'. apply mem_end; [rewrite wrx_pc; exact WPC|apply kle_refl]. }
  assert (HLP : forall a b, LoadGpr i 5 (a_rt2 i) (aGep n (vX 4) (cI 64 1)) = Some a -> LoadGpr i 6 (a_rd i) (vX 4) = Some b ->
    is_rzr (a_rd i) || negb (xr_eqb (a_rd i) (a_rt2 i)) = true ->
    lift_op cfg i = go (Some ((pre ++ [SLet 4 ptr]) ++ (a ++ b))) ->
    lifts i g (wrpc (wrx (wrx (kwb i g) (a_rd i) w (ldv 0)) (a_rt2 i) w (ldv n)) (k_pc g + 4))).
  { intros a b Ea Eb XX LO. eapply lifts_go; [exact LO|]. intro rt. rewrite <- !app_assoc. rewrite app_assoc. apply KA.
    eapply (L2 a Ea); [reflexivity|reflexivity|exact WM|]. intros vs' N63 N4. eapply (L1 b Eb); [exact N63|exact N4|rewrite wrx_m; exact WM|].
    intro vs2. apply mem_end; [rewrite !wrx_pc; exact WPC|]. destruct (a_rd i) eqn:ED; [|cbn [wrx]; apply kle_refl|];
    apply wrx_swap; intro Q; rewrite <- Q in XX; cbn [is_rzr orb xr_eqb] in XX; rewrite ?Z.eqb_refl in XX; discriminate XX. }
  assert (HST : forall tl g2, negb (has_wb i && xr_eqb (a_rn i) (a_rd i)) = true -> k_pc g2 = k_pc g ->
    lift_op cfg i = go (Some (((pre ++ [SLet 4 ptr]) ++ [SStore (eTrunc (mem_w i) (GetGp (a_rd i) (a_w32 i))) (vX 4)]) ++ tl)) ->
    (forall rt vs l Q, vs 63%nat = None -> K c g2 p vs rt l Q -> K c (wrm (kwb i g) (wr_mem (k_m g) ad (Z.to_nat n) (rdx g (a_rd i) w))) p vs rt (tl ++ l) Q) ->
    lifts i g (wrpc g2 (k_pc g + 4))).
  { intros tl g2 NW P2 LO T. apply negb_true_iff in NW. eapply lifts_go; [exact LO|]. intro rt. rewrite <- !app_assoc. rewrite app_assoc. apply KA. cbn [app].
    apply S1; [reflexivity|]. rewrite WM, kwb_rdx by exact NW. apply T; [reflexivity|]. apply mem_end; [exact P2|apply kle_refl]. }
  assert (HSP : forall tl g2, negb (has_wb i && (xr_eqb (a_rn i) (a_rd i) || xr_eqb (a_rn i) (a_rt2 i))) = true -> k_pc g2 = k_pc g ->
    lift_op cfg i = go (Some (((pre ++ [SLet 4 ptr]) ++ ([SStore (eTrunc (mem_w i) (GetGp (a_rt2 i) (a_w32 i))) (aGep n (vX 4) (cI 64 1))] ++
                                                      [SStore (eTrunc (mem_w i) (GetGp (a_rd i) (a_w32 i))) (vX 4)])) ++ tl)) ->
    (forall rt vs l Q, vs 63%nat = None -> K c g2 p vs rt l Q ->
       K c (wrm (kwb i g) (wr_mem (wr_mem (k_m g) ad (Z.to_nat n) (rdx g (a_rd i) w)) (ad + n) (Z.to_nat n) (rdx g (a_rt2 i) w))) p vs rt (tl ++ l) Q) ->
    lifts i g (wrpc g2 (k_pc g + 4))).
  { intros tl g2 NW P2 LO T. apply negb_true_iff in NW. eapply lifts_go; [exact LO|]. intro rt. rewrite <- !app_assoc. rewrite app_assoc. apply KA. cbn [app].
    assert (N1 : has_wb i && xr_eqb (a_rn i) (a_rd i) = false) by (destruct (has_wb i), (xr_eqb (a_rn i) (a_rd i)); (reflexivity || discriminate NW)).
    assert (N2 : has_wb i && xr_eqb (a_rn i) (a_rt2 i) = false) by (destruct (has_wb i), (xr_eqb (a_rn i) (a_rd i)), (xr_eqb (a_rn i) (a_rt2 i)); (reflexivity || discriminate NW)).
    apply S2; [reflexivity|]. apply S1; [reflexivity|].
    match goal with |- context [rdx (wrm ?a ?b) ?r w] => change (rdx (wrm a b) r w) with (rdx a r w) end.
    rewrite WM, !kwb_rdx by assumption. cbn [wrm k_m].
    eapply K_weaken; [|apply T; [reflexivity|apply mem_end; [exact P2|apply kle_refl]]].
    repeat split; auto. cbn [wrm k_m]. intro x. apply wr_mem_comm; lia. }
  destruct (a_op i) eqn:E; try contradiction; injection S as <-; rewrite EB in LL; cbv zeta iota in LL.
  - destruct G1 as [b Eb]. rewrite Eb in LL. cbn [oapp] in LL. apply (HLD b Eb). unfold lift_op. rewrite E, LL. reflexivity.
  - destruct G1 as [b Eb], G2 as [a Ea]. rewrite Ea, Eb in LL. cbn [oapp] in LL. apply (HLP a b Ea Eb XC). unfold lift_op. rewrite E, LL. reflexivity.
  - rewrite Z.add_0_r. apply (HST (SetGp (a_rs i) (cI w 0))); [exact XC|rewrite wrx_pc; exact WPC|unfold lift_op; rewrite E, LL; reflexivity|].
    intros rt vs l Q N63 T. apply KS; [exact N63|exact T].
  - rewrite Z.add_0_r. apply (HSP (SetGp (a_rs i) (cI w 0))); [exact XC|rewrite wrx_pc; exact WPC|unfold lift_op; rewrite E, LL; reflexivity|].
    intros rt vs l Q N63 T. apply KS; [exact N63|exact T].
  - destruct G1 as [b Eb], G2 as [a Ea]. rewrite Ea, Eb in LL. cbn [oapp] in LL. apply (HLP a b Ea Eb XC). unfold lift_op. rewrite E, LL. reflexivity.
  - rewrite Z.add_0_r. apply (HSP []); [exact XC|exact WPC|unfold lift_op; rewrite E, LL, app_nil_r; reflexivity|]. intros rt vs l Q N63 T. exact T.
  - destruct G1 as [b Eb]. rewrite Eb in LL. cbn [oapp] in LL. apply (HLD b Eb). unfold lift_op. rewrite E, LL. reflexivity.
  - rewrite Z.add_0_r. apply (HST []); [exact XC|exact WPC|unfold lift_op; rewrite E, LL, app_nil_r; reflexivity|]. intros rt vs l Q N63 T. exact T.
Qed.

(** ** SIMD&FP registers *)
Let fn := fsz_bytes (a_fsz i).
Let ft := facet_type (sc_facet (a_fsz i) true).
Lemma ft_size : tsize ft = 8 * fn /\ (fn = 1 \/ fn = 2 \/ fn = 4 \/ fn = 8 \/ fn = 16) /\ facet_size (sc_facet (a_fsz i) true) / 8 = fn.
Proof. unfold ft, fn. destruct (a_fsz i); cbn; lia. Qed.
Lemma kvals_scalar : forall g0 p0 vs r z, okq r = true -> kvals g0 p0 vs (GetScalar r z true) (V (facet_type (sc_facet z true)) (U (8 * fsz_bytes z) (k_q g0 r))).
Proof.
  intros g0 p0 vs r z O s rt (R & _). unfold GetScalar, ev, rG. cbn [eval leaf_val]. rewrite (kr_q _ _ R r) by (unfold okq in O; lia). destruct z; reflexivity.
Qed.
Theorem mem_fp_step : forall g', wf_mem i = true -> kmem i g = Some g' ->
  match a_op i with A_LDR_FP | A_LDP_FP | A_STR_FP | A_STP_FP => True | _ => False end ->
  lifts i g (wrpc g' (k_pc g + 4)).
Proof.
  intros g' WF S GP_. pose proof ft_size as (TS & FC & F8).
  assert (NB : Z.to_nat (tsize ft / 8) = Z.to_nat fn) by (rewrite TS; f_equal; lia).
  assert (WF' : wf_addr fn i = true /\ okq (a_vd i) = true /\ okq (a_vt2 i) = true /\ match a_op i with A_LDP_FP => negb (a_vd i =? a_vt2 i) | _ => true end = true).
  { unfold wf_mem in WF. fold fn in WF. destruct (a_op i); try contradiction; apply andb_prop in WF; destruct WF as [WF C1]; apply andb_prop in WF; destruct WF as [WF C2];
    apply andb_prop in WF; destruct WF as [WF C3]; auto. }
  destruct WF' as (WA & OD & OT & XC). clear WF.
  destruct (K_addr fn ltac:(lia) WA) as (pre & ptr & EA & KA).
  pose proof kwb_m as WM. pose proof kwb_pc as WPC. pose proof kwb_q as WQ.
  assert (LDI : forall k, inr 128 (rd_mem (k_m g) (ad + k) (Z.to_nat fn))).
  { intro k. apply (inr_le (8 * Z.of_nat (Z.to_nat fn))); [lia|apply rd_mem_inr]. }
  assert (LD : forall (x : nat) r pt k g1 vs rt l Q, okq r = true -> k_m g1 = k_m g -> kvals g1 p vs pt (V TPtr (trunc 64 (ad + k))) ->
    K c (wrq g1 r (rd_mem (k_m g) (ad + k) (Z.to_nat fn))) p (upd_var vs x (V ft (rd_mem (k_m g) (ad + k) (Z.to_nat fn)))) rt l Q ->
    K c g1 p vs rt (SLoad x ft pt :: SetScalar r (vX x) ++ l) Q).
  { intros x r pt k g1 vs rt l Q O GM EP T. eapply K_load; [exact EP|]. rewrite NB, GM, rd_mem_trunc. cbn [SetScalar app].
    eapply (K_setq c HA); [apply kvals_var; unfold upd_var; rewrite Nat.eqb_refl; reflexivity|exact O|apply LDI|exact T]. }
  assert (ST : forall r pt k g1 vs rt l Q, okq r = true -> k_q g1 = k_q g -> kvals g1 p vs pt (V TPtr (trunc 64 (ad + k))) ->
    K c (wrm g1 (wr_mem (k_m g1) (ad + k) (Z.to_nat fn) (k_q g r))) p vs rt l Q ->
    K c g1 p vs rt (SStore (GetScalar r (a_fsz i) true) pt :: l) Q).
  { intros r pt k g1 vs rt l Q O GQ EP T. eapply K_store with (t := ft) (v := k_q g r); [exact (kvals_scalar g1 p vs r (a_fsz i) O)|exact EP|rewrite NB; lia| |].
    - rewrite NB, Z2Nat.id by lia. intros j J. fold fn. rewrite GQ. apply byte_trunc; lia.
    - rewrite NB. eapply K_weaken; [|exact T]. repeat split; auto. cbn [wrm k_m]. intro x. apply wr_mem_trunc. }
  assert (P1 : forall g0 vs, vs 4%nat = Some (V TPtr ad) -> kvals g0 p vs (vX 4) (V TPtr (trunc 64 (ad + 0)))).
  { intros g0 vs V4. apply kvals_var. rewrite ad_inr. exact V4. }
  pose proof p2_ok as P2.
  unfold kmem in S. cbv zeta in S. fold fn ad in S.
  assert (LO : lift_op cfg i = go (LiftLoadStoreFP i)) by (unfold lift_op; destruct (a_op i); (contradiction || reflexivity)).
  unfold LiftLoadStoreFP in LO. rewrite F8, EA in LO. cbv zeta in LO. fold ft in LO.
  destruct (a_op i) eqn:E; try contradiction; injection S as <-; cbn [oapp go] in LO; (eapply lifts_go; [exact LO|]); intro rt; rewrite <- app_assoc; apply KA;
  rewrite <- ?app_assoc; cbn [app].
  - (* LDP *) eapply (LD 5%nat _ _ fn); [exact OT|exact WM|apply P2; reflexivity|].
    eapply (LD 6%nat _ _ 0); [exact OD|exact WM|apply P1; reflexivity|].
    apply mem_end; [exact WPC|]. repeat split; cbn [wrq k_q]; auto. intros k _. destruct (Z.eqb_spec k (a_vd i)), (Z.eqb_spec k (a_vt2 i)); auto. lia.
  - (* STP *) eapply (ST _ _ fn); [exact OT|exact WQ|apply P2; reflexivity|].
    eapply (ST _ _ 0); [exact OD|exact WQ|apply P1; reflexivity|].
    apply mem_end; [exact WPC|]. repeat split; cbn [wrm k_m]; auto. intro x. rewrite WM, Z.add_0_r. apply wr_mem_comm; lia.
  - (* LDR *) eapply (LD 6%nat _ _ 0); [exact OD|exact WM|apply P1; reflexivity|]. apply mem_end; [exact WPC|apply kle_refl].
  - (* STR *) eapply (ST _ _ 0); [exact OD|exact WQ|apply P1; reflexivity|]. rewrite WM. apply mem_end; [exact WPC|apply kle_refl].
Qed.
Theorem mem_step : forall g', wf_mem i = true -> kmem i g = Some g' -> lifts i g (wrpc g' (k_pc g + 4)).
Proof.
  intros g' WF S. pose proof (mem_gp_step g' WF S) as A. pose proof (mem_fp_step g' WF S) as B.
  unfold kmem in S. destruct (a_op i); try discriminate S; first [exact (A I)|exact (B I)].
Qed.
End Mem.
