(** Correctness of the memory, atomic and control-flow instructions of the RV64
    lifter. *)

From Coq Require Import ZArith Lia ZifyBool List Bool.
From Verif Require Import Bits IR Facet Dsl Rv64 Rv64Spec Rv64Sim Rv64Arith Rv64Int.
Import ListNotations.
Open Scope Z_scope.
Ltac Zify.zify_post_hook ::= Z.div_mod_to_equations.

Section Mem.
Context `{FpuOps}.
Variable c : cenv.
Hypothesis HA : c_arch c = RV64.
Hypothesis GB : gbase_ok c.
Variable cfg : lcfg.
Variable kc : areg -> konst.
Variable i : rvinst.
Variable s : st.
Variable g : gst.
Hypothesis R : rel s g.
Hypothesis KC : kc_sound kc s.
Hypothesis PC : g_pc g = addr_pc_base c (r_start i).
Let a := rx g (r_rs1 i).
Let b := rx g (r_rs2 i).
Let imm := r_imm i.
Let s0 := at_start i s.
Let ea := U 64 (a + imm).

Lemma Ma : inr 64 a. Proof. apply (rx_inr s). assumption. Qed.
Lemma Mb : inr 64 b. Proof. apply (rx_inr s). assumption. Qed.
Lemma MR0 : rel s0 g. Proof. apply rel_at_start. assumption. Qed.
Lemma ea_inr : inr 64 ea. Proof. apply trunc_range. lia. Qed.

(** Any instruction that ends with SetIP(end). *)
Lemma plain_gen : forall l s1 g1,
  lift_mnem c cfg kc i = plain l i -> run c s0 l = Ok s1 -> rel s1 g1 ->
  s_reg s1 (GP 0) = s_reg s (GP 0) -> s_ret s1 = s_ret s ->
  lifts_to c cfg kc i s (wpc g1 (g_pc g + r_len i)) (PcConst (r_end i)).
Proof.
  intros l s1 g1 L P R1 X0 RT.
  unfold lifts_to, lift_rv64. rewrite L. unfold plain.
  eexists _, (with_pc s1 (PcConst (r_end i))). split; [reflexivity|].
  split. { cbn [run run1 bind]. fold (at_start i s). fold s0. rewrite run_app, P. reflexivity. }
  split; [apply rel_with_pc, rel_wpc; assumption|].
  split. { unfold pc_at. cbn [with_pc s_pc pc_value wpc g_pc]. rewrite Z.add_0_r, (next_pc c i g PC). reflexivity. }
  split; [reflexivity|]. split; assumption.
Qed.

(** A load into temporary 0. *)
Lemma run_load : forall w p z n, ev c s0 p = Ok (V TPtr z) -> Z.to_nat (w / 8) = n ->
  run c s0 [SLoad 0 (TInt w) p] = Ok (with_var s0 (upd_var (s_var s0) 0 (V (TInt w) (rd_mem (g_mem g) z n)))).
Proof.
  intros w p z n E N. cbn [run run1]. rewrite E. cbn [bind load_rv]. unfold nbytes. cbn [tsize]. rewrite N, load_rd.
  rewrite (rd_mem_ext n (s_mem s0) (g_mem g) z) by (intro; apply MR0). reflexivity.
Qed.
Lemma rd_mem_inr : forall m z n, inr (8 * Z.of_nat n) (rd_mem m z n).
Proof. intros. rewrite <- load_rd. apply load_bytes_range. Qed.

(** A load followed by StoreGp of a function of the loaded value. *)
Lemma load_goal : forall w p z n e w' x v,
  lift_mnem c cfg kc i = plain (SLoad 0 (TInt w) p :: StoreGp (r_rd i) e) i ->
  ev c s0 p = Ok (V TPtr z) -> Z.to_nat (w / 8) = n ->
  (forall t, s_var t 0 = Some (V (TInt w) (rd_mem (g_mem g) z n)) -> val c t e w' x) ->
  0 < w' <= 64 -> inr w' x -> sext w' 64 x = U 64 v ->
  lifts_to c cfg kc i s (wpc (wx g (r_rd i) v) (g_pc g + r_len i)) (PcConst (r_end i)).
Proof.
  intros w p z n e w' x v L E N VE W I V.
  eapply (plain_pre c cfg kc i s g [SLoad 0 (TInt w) p] e w' x v).
  - rewrite L. reflexivity.
  - apply run_load; eassumption.
  - apply rel_with_var, MR0.
  - reflexivity.
  - reflexivity.
  - apply VE. reflexivity.
  - assumption.
  - assumption.
  - assumption.
  - assumption.
Qed.

Lemma load_correct : forall n sg, isa_load (r_mn i) = Some (n, sg) ->
  lifts_to c cfg kc i s
    (wpc (wx g (r_rd i) (if sg then S_ (8 * Z.of_nat n) (rd_mem (g_mem g) ea n) else rd_mem (g_mem g) ea n))
         (g_pc g + r_len i)) (PcConst (r_end i)).
Proof.
  intros n sg E.
  pose proof (ev_Addr c kc s0 g i MR0 KC GB) as EA. fold a imm in EA.
  assert (T : forall f w, trunc w (rd_mem (g_mem g) (trunc 64 (a + imm)) f) = rd_mem (g_mem g) (trunc 64 (a + imm)) f
              \/ w < 8 * Z.of_nat f).
  { intros f w. destruct (w <? 8 * Z.of_nat f) eqn:Q; [right; lia|left]. apply trunc_small.
    apply (inr_le (8 * Z.of_nat f)); [lia|apply rd_mem_inr]. }
  assert (SX : forall k w, w = 8 * Z.of_nat k -> 0 < w <= 64 ->
    sext 64 64 (sext w 64 (rd_mem (g_mem g) ea k)) = U 64 (S_ w (rd_mem (g_mem g) ea k))).
  { intros k w -> W. rewrite sext_same; [|lia|apply trunc_range; lia].
    unfold sext. rewrite S_small; [reflexivity|apply rd_mem_inr]. }
  assert (ZX : forall k w, w = 8 * Z.of_nat k -> 0 < w <= 64 ->
    sext 64 64 (rd_mem (g_mem g) ea k) = U 64 (rd_mem (g_mem g) ea k)).
  { intros k w -> W. pose proof (inr_le (8 * Z.of_nat k) 64 _ ltac:(lia) (rd_mem_inr (g_mem g) ea k)) as I.
    rewrite sext_same by (lia || assumption). symmetry. apply trunc_small. assumption. }
  destruct (r_mn i) eqn:M; try discriminate E; cbn [isa_load] in E;
  (injection E as N S; rewrite <- N, <- S; cbv iota; clear N S).
  - eapply (load_goal 8 _ ea 1 _ 64 (sext 8 64 _)); [unfold lift_mnem; rewrite M; reflexivity|exact EA|reflexivity| |lia|apply trunc_range; lia|apply SX; lia].
    intros t Vt. apply val_sext; [apply val_var; exact Vt|lia|apply (rd_mem_inr (g_mem g) ea 1)].
  - eapply (load_goal 8 _ ea 1 _ 64); [unfold lift_mnem; rewrite M; reflexivity|exact EA|reflexivity| |lia| |apply (ZX _ 8); lia].
    + intros t Vt. eapply val_zext; [apply val_var; exact Vt|lia].
    + apply (inr_le 8); [lia|apply (rd_mem_inr (g_mem g) ea 1)].
  - eapply (load_goal 16 _ ea 2 _ 64 (sext 16 64 _)); [unfold lift_mnem; rewrite M; reflexivity|exact EA|reflexivity| |lia|apply trunc_range; lia|apply SX; lia].
    intros t Vt. apply val_sext; [apply val_var; exact Vt|lia|apply (rd_mem_inr (g_mem g) ea 2)].
  - eapply (load_goal 16 _ ea 2 _ 64); [unfold lift_mnem; rewrite M; reflexivity|exact EA|reflexivity| |lia| |apply (ZX _ 16); lia].
    + intros t Vt. eapply val_zext; [apply val_var; exact Vt|lia].
    + apply (inr_le 16); [lia|apply (rd_mem_inr (g_mem g) ea 2)].
  - eapply (load_goal 32 _ ea 4 _ 64 (sext 32 64 _)); [unfold lift_mnem; rewrite M; reflexivity|exact EA|reflexivity| |lia|apply trunc_range; lia|apply SX; lia].
    intros t Vt. apply val_sext; [apply val_var; exact Vt|lia|apply (rd_mem_inr (g_mem g) ea 4)].
  - eapply (load_goal 32 _ ea 4 _ 64); [unfold lift_mnem; rewrite M; reflexivity|exact EA|reflexivity| |lia| |apply (ZX _ 32); lia].
    + intros t Vt. eapply val_zext; [apply val_var; exact Vt|lia].
    + apply (inr_le 32); [lia|apply (rd_mem_inr (g_mem g) ea 4)].
  - eapply (load_goal 64 _ ea 8 _ 64 (sext 64 64 _)); [unfold lift_mnem; rewrite M; reflexivity|exact EA|reflexivity| |lia|apply trunc_range; lia|apply SX; lia].
    intros t Vt. apply val_sext; [apply val_var; exact Vt|lia|apply (rd_mem_inr (g_mem g) ea 8)].
Qed.

Lemma lr_correct : forall n, isa_lr (r_mn i) = Some n ->
  lifts_to c cfg kc i s
    (wpc (wx g (r_rd i) (S_ (8 * Z.of_nat n) (rd_mem (g_mem g) a n))) (g_pc g + r_len i)) (PcConst (r_end i)).
Proof.
  intros n E. pose proof (ev_LoadPtr c s0 g (r_rs1 i) MR0) as EA.
  destruct (r_mn i) eqn:M; try discriminate E; cbn [isa_lr] in E; (injection E as N; rewrite <- N; clear N).
  - eapply (load_goal 32 _ a 4 _ 32); [unfold lift_mnem; rewrite M; reflexivity|exact EA|reflexivity| |lia| |].
    + intros t Vt. apply val_var. exact Vt.
    + apply (rd_mem_inr (g_mem g) a 4).
    + unfold sext. rewrite S_small; [reflexivity|apply (rd_mem_inr (g_mem g) a 4)].
  - eapply (load_goal 64 _ a 8 _ 64); [unfold lift_mnem; rewrite M; reflexivity|exact EA|reflexivity| |lia| |].
    + intros t Vt. apply val_var. exact Vt.
    + apply (rd_mem_inr (g_mem g) a 8).
    + unfold sext. rewrite S_small; [reflexivity|apply (rd_mem_inr (g_mem g) a 8)].
Qed.

(** Stores. *)
Lemma rel_store : forall t gt n z v v', rel t gt -> (n <= 64)%nat ->
  (forall k, 0 <= k < Z.of_nat n -> (v / 256^k) mod 256 = (v' / 256^k) mod 256) ->
  rel (with_mem t (store_bytes (s_mem t) z n v)) (wmem gt (wr_mem (g_mem gt) z n v')).
Proof.
  intros t gt n z v v' [A B C D M] N K. split; cbn [with_mem wmem g_x g_f g_mem s_reg s_mem]; try assumption.
  intro x. rewrite store_wr by assumption. apply wr_mem_ext; assumption.
Qed.
Lemma run_store : forall t ve p ty z v n, ev c t ve = Ok (V ty v) -> ev c t p = Ok (V TPtr z) -> nbytes ty = n ->
  run c t [SStore ve p] = Ok (with_mem t (store_bytes (s_mem t) z n v)).
Proof. intros t ve p ty z v n E1 E2 N. cbn [run run1]. rewrite E1, E2. cbn [bind store_rv]. rewrite N. reflexivity. Qed.

Lemma store_goal : forall ve p ty z v v' n,
  lift_mnem c cfg kc i = plain [SStore ve p] i ->
  ev c s0 ve = Ok (V ty v) -> ev c s0 p = Ok (V TPtr z) -> nbytes ty = n -> (n <= 64)%nat ->
  (forall k, 0 <= k < Z.of_nat n -> (v / 256^k) mod 256 = (v' / 256^k) mod 256) ->
  lifts_to c cfg kc i s (wpc (wmem g (wr_mem (g_mem g) z n v')) (g_pc g + r_len i)) (PcConst (r_end i)).
Proof.
  intros ve p ty z v v' n L E1 E2 N LN K.
  eapply plain_gen; [exact L|eapply run_store; eassumption|apply rel_store; try assumption; apply MR0|reflexivity|reflexivity].
Qed.
Lemma store_correct : forall n, isa_store (r_mn i) = Some n ->
  lifts_to c cfg kc i s (wpc (wmem g (wr_mem (g_mem g) ea n b)) (g_pc g + r_len i)) (PcConst (r_end i)).
Proof.
  intros n E.
  pose proof (ev_Addr c kc s0 g i MR0 KC GB) as EA. fold a imm in EA.
  destruct (r_mn i) eqn:M; try discriminate E; cbn [isa_store] in E; (injection E as N; rewrite <- N; clear N).
  - eapply (store_goal _ _ (TInt 8)); [unfold lift_mnem; rewrite M; reflexivity
      |apply (val_LoadGp c s0 g (r_rs2 i) I8 MR0); cbn; tauto|exact EA|reflexivity|lia|].
    intros k K. apply byte_trunc; cbn [facet_size]; lia.
  - eapply (store_goal _ _ (TInt 16)); [unfold lift_mnem; rewrite M; reflexivity
      |apply (val_LoadGp c s0 g (r_rs2 i) I16 MR0); cbn; tauto|exact EA|reflexivity|lia|].
    intros k K. apply byte_trunc; cbn [facet_size]; lia.
  - eapply (store_goal _ _ (TInt 32)); [unfold lift_mnem; rewrite M; reflexivity
      |apply (val_LoadGp c s0 g (r_rs2 i) I32 MR0); cbn; tauto|exact EA|reflexivity|lia|].
    intros k K. apply byte_trunc; cbn [facet_size]; lia.
  - eapply (store_goal _ _ (TInt 64)); [unfold lift_mnem; rewrite M; reflexivity
      |apply (val_LoadGp c s0 g (r_rs2 i) I64 MR0); cbn; tauto|exact EA|reflexivity|lia|].
    intros k K. apply byte_trunc; cbn [facet_size]; lia.
Qed.

(** sc.w/sc.d: rd is written before rs1 and rs2 are read (lifter.cc:523-530), so
    the instruction is right only if rd is x0 or neither source. *)
Definition sc_pre : Prop := r_rd i = 0 \/ (r_rd i <> r_rs1 i /\ r_rd i <> r_rs2 i).
Lemma rx_wx_other : forall gt rd v n, rd = 0 \/ rd <> n -> rx (wx gt rd v) n = rx gt n.
Proof.
  intros gt rd v n D. unfold wx, rx. destruct (rd =? 0) eqn:E0; [reflexivity|].
  destruct (n =? 0); [reflexivity|]. cbn [g_x]. destruct (n =? rd) eqn:E; [lia|reflexivity].
Qed.
Lemma wx_wmem : forall gt rd v m, wx (wmem gt m) rd v = wmem (wx gt rd v) m.
Proof. intros. unfold wx. destruct (rd =? 0); reflexivity. Qed.
Lemma wx_mem : forall gt rd v, g_mem (wx gt rd v) = g_mem gt.
Proof. intros. unfold wx. destruct (rd =? 0); reflexivity. Qed.
Lemma sc_goal : forall f ty n, In f [I32; I64] -> ty = TInt (facet_size f) -> n = nbytes ty ->
  lift_mnem c cfg kc i = plain (StoreGp (r_rd i) (cI 32 0) ++ [SStore (LoadGp (r_rs2 i) f) (LoadGp (r_rs1 i) PTR)]) i ->
  sc_pre ->
  lifts_to c cfg kc i s (wpc (wx (wmem g (wr_mem (g_mem g) a n b)) (r_rd i) 0) (g_pc g + r_len i)) (PcConst (r_end i)).
Proof.
  intros f ty n F T N L P.
  set (s1 := gp_written s0 (r_rd i) 32 (trunc 32 0)). set (g1 := wx g (r_rd i) 0).
  assert (R1 : rel s1 g1) by (apply rel_gp_written; [apply MR0|reflexivity]).
  assert (XA : rx g1 (r_rs1 i) = a) by (apply rx_wx_other; destruct P as [P|[P _]]; tauto).
  assert (XB : rx g1 (r_rs2 i) = b) by (apply rx_wx_other; destruct P as [P|[_ P]]; tauto).
  rewrite wx_wmem. fold g1. rewrite <- (wx_mem g (r_rd i) 0). fold g1.
  assert (NL : (n <= 8)%nat) by (subst n ty; cbn [In] in F; destruct F as [<-|[<-|[]]]; cbn; lia).
  assert (FN : facet_size f = 8 * Z.of_nat n) by (subst n ty; cbn [In] in F; destruct F as [<-|[<-|[]]]; reflexivity).
  eapply plain_gen; [exact L| |apply (rel_store s1 g1 n a (trunc (facet_size f) b) b R1); [lia|]| |].
  - rewrite run_app, (run_StoreGp c s0 (r_rd i) (cI 32 0) 32 (trunc 32 0));
      [|apply val_cI|lia|apply trunc_range; lia]. cbn [bind]. fold s1.
    eapply run_store.
    + rewrite <- XB. apply (val_LoadGp c s1 g1 (r_rs2 i) f R1). cbn [In] in F |- *. tauto.
    + rewrite <- XA. apply (ev_LoadPtr c s1 g1 (r_rs1 i) R1).
    + subst n ty. reflexivity.
  - intros k K. apply byte_trunc; lia.
  - cbn [with_mem s_reg]. subst s1. rewrite gp_written_x0. reflexivity.
  - cbn [with_mem s_ret]. subst s1. rewrite gp_written_ret. reflexivity.
Qed.
Lemma sc_correct : forall n, isa_sc (r_mn i) = Some n -> sc_pre ->
  lifts_to c cfg kc i s (wpc (wx (wmem g (wr_mem (g_mem g) a n b)) (r_rd i) 0) (g_pc g + r_len i)) (PcConst (r_end i)).
Proof.
  intros n E P.
  destruct (r_mn i) eqn:M; try discriminate E; cbn [isa_sc] in E; (injection E as N; rewrite <- N; clear N).
  - eapply (sc_goal I32); [cbn; tauto|reflexivity|reflexivity|unfold lift_mnem; rewrite M; reflexivity|exact P].
  - eapply (sc_goal I64); [cbn; tauto|reflexivity|reflexivity|unfold lift_mnem; rewrite M; reflexivity|exact P].
Qed.

(** Atomic read-modify-write. *)
Lemma amo_goal : forall op f w n F, In f [I32; I64] -> w = facet_size f -> n = Z.to_nat (w / 8) ->
  lift_mnem c cfg kc i = plain_opt (LiftAmo i op f) i -> 0 <= imm <= 3 ->
  (forall o v, inr w o -> inr w v -> trunc w (rmw_sem op w o v) = trunc w (F o v)) ->
  lifts_to c cfg kc i s
    (wpc (wx (wmem g (wr_mem (g_mem g) a n (F (rd_mem (g_mem g) a n) (U w b)))) (r_rd i) (S_ w (rd_mem (g_mem g) a n)))
       (g_pc g + r_len i)) (PcConst (r_end i)).
Proof.
  intros op f w n F HF W N L I FE.
  assert (WV : w = 8 * Z.of_nat n /\ 0 < w <= 64)
    by (subst n w; cbn [In] in HF; destruct HF as [<-|[<-|[]]]; (split; [reflexivity|cbn [facet_size]; lia])).
  destruct WV as [WV WB].
  set (old := rd_mem (g_mem g) a n).
  assert (OI : inr w old) by (rewrite WV; apply rd_mem_inr).
  assert (VB : val c s0 (LoadGp (r_rs2 i) f) w (trunc w b)).
  { subst w. apply (val_LoadGp c s0 g (r_rs2 i) f MR0). cbn [In] in HF |- *. tauto. }
  assert (BI : inr w (trunc w b)) by (apply trunc_range; lia).
  pose proof (ev_LoadPtr c s0 g (r_rs1 i) MR0) as EA. fold a in EA.
  set (nv := rmw_sem op w old (trunc w b)).
  set (s1 := with_mem (with_var s0 (upd_var (s_var s0) 0 (V (TInt w) old))) (store_bytes (s_mem s0) a n nv)).
  assert (R1 : rel s1 (wmem g (wr_mem (g_mem g) a n (F old (U w b))))).
  { apply (rel_store (with_var s0 (upd_var (s_var s0) 0 (V (TInt w) old))) g n a).
    - apply rel_with_var, MR0.
    - lia.
    - intros k K. rewrite <- (byte_trunc w nv k), <- (byte_trunc w (F old (U w b)) k) by lia.
      subst nv. change U with trunc. rewrite FE by assumption. reflexivity. }
  eapply (plain_gen _ (gp_written s1 (r_rd i) w old)).
  - rewrite L. unfold LiftAmo. fold imm. replace ((0 <=? imm) && (imm <=? 3)) with true by lia. reflexivity.
  -
    change (run c s0 ([SRmw 0 op (LoadGp (r_rs1 i) PTR) (LoadGp (r_rs2 i) f)] ++ StoreGp (r_rd i) (vX 0)) = Ok (gp_written s1 (r_rd i) w old)).
    rewrite run_app. cbn [run run1]. rewrite EA. cbn [bind]. unfold val in VB. rewrite VB. cbn [bind load_rv].
    unfold nbytes. cbn [tsize]. rewrite <- N, load_rd.
    rewrite (rd_mem_ext n (s_mem s0) (g_mem g) a) by (intro; apply MR0). fold old. cbn [bind store_rv].
    unfold nbytes. cbn [tsize]. rewrite <- N. fold nv. cbn [bind]. fold s1.
    rewrite (run_StoreGp c s1 (r_rd i) (vX 0) w old) by (try (apply val_var; reflexivity); assumption). reflexivity.
  - apply rel_gp_written; [exact R1|]. unfold sext. rewrite S_small by assumption. reflexivity.
  - rewrite gp_written_x0. reflexivity.
  - rewrite gp_written_ret. reflexivity.
Qed.
Lemma minmax_S : forall w o v, inr w o -> inr w v -> 0 < w ->
  trunc w (intr2_sem SMax w o v) = trunc w (Z.max (S_ w o) (S_ w v)) /\
  trunc w (intr2_sem SMin w o v) = trunc w (Z.min (S_ w o) (S_ w v)).
Proof.
  intros w o v O V W. cbn [intr2_sem]. rewrite !S_small by assumption. split.
  - destruct (sgn w o <? sgn w v) eqn:L; [rewrite Z.max_r by lia|rewrite Z.max_l by lia];
    rewrite trunc_sgn by assumption; apply trunc_small; assumption.
  - destruct (sgn w v <? sgn w o) eqn:L; [rewrite Z.min_r by lia|rewrite Z.min_l by lia];
    rewrite trunc_sgn by assumption; apply trunc_small; assumption.
Qed.
Lemma minmax_U : forall w o v,
  intr2_sem UMax w o v = Z.max o v /\ intr2_sem UMin w o v = Z.min o v.
Proof.
  intros w o v. cbn [intr2_sem]. split.
  - destruct (o <? v) eqn:L; [rewrite Z.max_r by lia|rewrite Z.max_l by lia]; reflexivity.
  - destruct (v <? o) eqn:L; [rewrite Z.min_r by lia|rewrite Z.min_l by lia]; reflexivity.
Qed.
Lemma amo_correct : forall n F, isa_amo (r_mn i) = Some (n, F) -> 0 <= imm <= 3 ->
  lifts_to c cfg kc i s
    (wpc (wx (wmem g (wr_mem (g_mem g) a n (F (rd_mem (g_mem g) a n) (U (8 * Z.of_nat n) b)))) (r_rd i)
             (S_ (8 * Z.of_nat n) (rd_mem (g_mem g) a n)))
       (g_pc g + r_len i)) (PcConst (r_end i)).
Proof.
  intros n F E I.
  destruct (r_mn i) eqn:M; try discriminate E; cbn [isa_amo] in E; (injection E as N F'; rewrite <- N; clear N).
  all: try change (8 * Z.of_nat 4) with 32; try change (8 * Z.of_nat 8) with 64.
  all: first
  [ eapply (amo_goal _ I32 32 4 F); [cbn; tauto|reflexivity|reflexivity|unfold lift_mnem; rewrite M; reflexivity|exact I|]
  | eapply (amo_goal _ I64 64 8 F); [cbn; tauto|reflexivity|reflexivity|unfold lift_mnem; rewrite M; reflexivity|exact I|] ].
  all: intros o v Ho Hv; rewrite <- F'; cbn [rmw_sem];
    first [ reflexivity | rewrite trunc_trunc by lia; reflexivity
          | apply (minmax_S 32); (assumption || lia) | apply (minmax_S 64); (assumption || lia)
          | f_equal; apply minmax_U ].
Qed.

Lemma fence_correct : r_mn i = R_FENCE -> lifts_to c cfg kc i s (wpc g (g_pc g + r_len i)) (PcConst (r_end i)).
Proof.
  intro M. eapply (plain_gen [] s0); [unfold lift_mnem; rewrite M; reflexivity|reflexivity|apply MR0|reflexivity|reflexivity].
Qed.

(** ** Control flow *)
Definition branch_pc (t : bool) : pcreg := PcCond (V (TInt 1) (b2z t)) (trunc 64 (r_start i + imm)) (r_end i).
Lemma branch_correct : forall t, isa_branch (r_mn i) a b = Some t ->
  lifts_to c cfg kc i s (wpc g (if t then g_pc g + imm else g_pc g + r_len i)) (branch_pc t).
Proof.
  assert (G : forall p t, lift_mnem c cfg kc i = Some (true, LiftBranch i p) -> icmp_sem p 64 a b = t ->
    lifts_to c cfg kc i s (wpc g (if t then g_pc g + imm else g_pc g + r_len i)) (branch_pc t)).
  { intros p t L T. unfold lifts_to, lift_rv64. rewrite L.
    eexists _, (with_pc s0 (branch_pc t)). split; [reflexivity|]. split.
    { cbn [run run1 bind]. fold (at_start i s). fold s0. unfold LiftBranch. cbn [run run1].
      pose proof (val_cmp c s0 p _ _ 64 _ _ (val_LoadGp64 c s0 g (r_rs1 i) MR0) (val_LoadGp64 c s0 g (r_rs2 i) MR0)) as Q.
      unfold val in Q. rewrite Q. fold a b. rewrite T. reflexivity. }
    split; [apply rel_with_pc, rel_wpc, MR0|]. split.
    { unfold pc_at, branch_pc. cbn [with_pc s_pc pc_value wpc g_pc]. rewrite !Z.add_0_r.
      rewrite (next_pc c i g PC), addr_pc_base_trunc, addr_pc_base_add, <- PC. destruct t; reflexivity. }
    split; [reflexivity|]. split; reflexivity. }
  intros t E. pose proof Ma as Ia. pose proof Mb as Ib.
  destruct (r_mn i) eqn:M; try discriminate E; cbn [isa_branch] in E; (injection E as N; rewrite <- N; clear N).
  all: eapply G; [unfold lift_mnem; rewrite M; reflexivity|]; cbn [icmp_sem]; rewrite ?S_small by assumption; try reflexivity; lia.
Qed.

(** Which of the three shapes JAL/JALR takes (lifter.cc:397-410). *)
Inductive jkind := JJump | JRet | JCall (f : Z).
Definition link (n : Z) : bool := (n =? 1) || (n =? 5).
Definition jal_kind : jkind :=
  match l_call cfg with
  | None => JJump
  | Some f => if negb (link (r_rd i)) && link (r_rs1 i) then JRet
              else if link (r_rd i) && (negb (link (r_rs1 i)) || (r_rs1 i =? r_rd i)) then JCall f else JJump
  end.
(** What the decoder guarantees about the rs1 field. *)
Definition jal_dec : Prop :=
  (r_mn i = R_JAL /\ r_rs1 i = FRV_REG_INV) \/ (r_mn i = R_JALR /\ r_rs1 i <> FRV_REG_INV).
Definition jal_target : Z := if r_rs1 i =? FRV_REG_INV then g_pc g + imm else a + imm.

(** State after the jump proper: link register and PC written. *)
Lemma jal_body : jal_dec -> exists l s1,
  lift_mnem c cfg kc i = Some (true, l ++ match jal_kind with JJump => [] | JRet => [SRet]
                                          | JCall f => [SCall f; SPcCallret (r_end i)] end) /\
  run c s0 l = Ok s1 /\ rel s1 (wpc (wx g (r_rd i) (g_pc g + r_len i)) jal_target) /\
  pc_at c s1 (wpc (wx g (r_rd i) (g_pc g + r_len i)) jal_target) /\
  s_reg s1 (GP 0) = s_reg s (GP 0) /\ s_ret s1 = s_ret s /\
  s_pc s1 = (if r_rs1 i =? FRV_REG_INV then PcConst (trunc 64 (r_start i + imm)) else PcVal (V (TInt 64) (trunc 64 (a + imm)))).
Proof.
  intro D.
  set (link_v := trunc 64 (g_pc g + r_len i)).
  set (s1 := with_var s0 (upd_var (s_var s0) 0 (V (TInt 64) link_v))).
  assert (L1 : run1 c s0 (SLet 0 (ELeaf (DPc (r_len i)))) = Ok s1).
  { cbn [run1]. unfold ev. cbn [eval leaf_val s_pc with_pc pc_value s0 at_start].
    subst s0 s1 link_v. cbn [at_start with_pc s_pc pc_value bind]. rewrite addr_pc_base_add, <- PC. reflexivity. }
  set (p := if r_rs1 i =? FRV_REG_INV then PcConst (trunc 64 (r_start i + imm)) else PcVal (V (TInt 64) (trunc 64 (a + imm)))).
  set (s2 := with_pc s1 p).
  assert (L2 : run c s1 (if negb (r_rs1 i =? FRV_REG_INV)
      then [SPcVal (eAdd (LoadGp (r_rs1 i) I64) (cI 64 (r_imm i)))]
      else [SPcConst (trunc 64 (r_start i + r_imm i))]) = Ok s2).
  { subst s2 p. destruct (r_rs1 i =? FRV_REG_INV); cbn [negb]; [reflexivity|]. cbn [run run1].
    assert (RR : rel s1 g) by (apply rel_with_var, MR0).
    pose proof (val_bin c s1 Add _ _ 64 _ _ _ (val_LoadGp64 c s1 g (r_rs1 i) RR) (val_cI c s1 64 (r_imm i)) eq_refl) as Q.
    unfold val in Q. unfold eAdd. rewrite Q. cbn [bind]. rewrite trunc_add_r by lia. reflexivity. }
  assert (L3 : run c s2 (StoreGp (r_rd i) (vX 0)) = Ok (gp_written s2 (r_rd i) 64 link_v)).
  { apply run_StoreGp; [apply val_var; reflexivity|lia|apply trunc_range; lia]. }
  exists ([SLet 0 (ELeaf (DPc (r_len i)))]
    ++ (if negb (r_rs1 i =? FRV_REG_INV)
        then [SPcVal (eAdd (LoadGp (r_rs1 i) I64) (cI 64 (r_imm i)))]
        else [SPcConst (trunc 64 (r_start i + r_imm i))])
    ++ StoreGp (r_rd i) (vX 0)), (gp_written s2 (r_rd i) 64 link_v).
  split.
  { unfold lift_mnem. unfold jal_kind, link. 
    destruct D as [[M _]|[M _]]; rewrite M; unfold LiftJal; rewrite <- !app_assoc;
    (destruct (l_call cfg) as [f|]; [|rewrite !app_nil_r; reflexivity]);
    repeat match goal with |- context [if ?x then _ else _] => destruct x end; reflexivity. }
  split.
  { cbn [app run]. rewrite L1. cbn [bind]. rewrite run_app, L2. exact L3. }
  split.
  { apply rel_wpc. apply rel_gp_written; [apply rel_with_pc, rel_with_var, MR0|].
    rewrite sext_same; [reflexivity|lia|apply trunc_range; lia]. }
  split.
  { unfold pc_at. rewrite gp_written_pc. cbn [s2 with_pc s_pc wpc g_pc]. subst s2. cbn [with_pc s_pc]. subst p. unfold jal_target.
    destruct (r_rs1 i =? FRV_REG_INV); cbn [pc_value].
    - rewrite Z.add_0_r, addr_pc_base_trunc, addr_pc_base_add, <- PC. reflexivity.
    - reflexivity. }
  split; [rewrite gp_written_x0; reflexivity|]. split; [rewrite gp_written_ret; reflexivity|].
  rewrite gp_written_pc. reflexivity.
Qed.
End Mem.
