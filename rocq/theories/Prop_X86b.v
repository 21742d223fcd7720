(** Properties C28-C31: x86-64 shifts, multiplication and division, sub-registers
    and effective addresses. *)

From Coq Require Import ZArith Lia ZifyBool List Bool.
From Verif Require Import Bits IR Facet Dsl Rv64 Rv64Spec Rv64Sim Rv64Arith Rv64Int Rv64Ex X86 X86Spec X86Arith X86Sim X86Ops
  X86Gp X86Gp2 X86Gp3 X86Gp4 X86Gp5 X86Gp6 X86Gp7 X86Step X86Cond X86Ex.
Import ListNotations.
Open Scope Z_scope.
Ltac Zify.zify_post_hook ::= Z.div_mod_to_equations.

(** ** C28: shifts and rotates *)
(** Results for every count. Flags: everything the architecture defines when the
    masked count is not zero (SHL, SHR, SAR); CF and OF are not produced by
    rotates and double shifts. *)
Theorem x86_shift_correct_partial : forall `{FpuOps} c cfg kc kcp kd i s g g', x_ctx c cfg kc i s g ->
  In (x_mn i) [X_SHL; X_SHR; X_SAR] -> xspec i g = Some g' ->
  let ga := adv i g in let k := cmask (op_bits (x_op0 i)) (rd_op ga (x_op1 i)) in
  x_lifts c cfg kc kcp kd i s (if k =? 0 then forget [fCF; fOF; fAF; fZF; fSF; fPF] g' else g') (s_ret s).
Proof.
  intros F c cfg kc kcp kd i s g g' C MN E ga k.
  assert (X : xsupp kcp kd i ga /\ xext cfg i = [] /\ xlost cfg i ga = shift_lost k /\ xrets cfg i (s_ret s) = s_ret s).
  { unfold xsupp, xext, xlost, xrets. mns MN; rewrite MN; auto. }
  destruct X as (X1 & X2 & X3 & X4). unfold shift_lost in X3. destruct (k =? 0).
  - rewrite <- X3, <- X4. apply whole_step; assumption.
  - eapply whole_exact; eassumption.
Qed.
Print Assumptions x86_shift_correct_partial.
Theorem x86_rotate_correct_partial : forall `{FpuOps} c cfg kc kcp kd i s g g', x_ctx c cfg kc i s g ->
  In (x_mn i) [X_ROL; X_ROR] -> xspec i g = Some g' ->
  x_lifts c cfg kc kcp kd i s (forget [fCF; fOF] g') (s_ret s).
Proof.
  intros F c cfg kc kcp kd i s g g' C MN E.
  assert (X : xsupp kcp kd i (adv i g) /\ xext cfg i = [] /\ xlost cfg i (adv i g) = [fCF; fOF] /\ xrets cfg i (s_ret s) = s_ret s).
  { unfold xsupp, xext, xlost, xrets. mns MN; rewrite MN; auto. }
  destruct X as (X1 & X2 & X3 & X4). rewrite <- X3, <- X4. apply whole_step; assumption.
Qed.
Print Assumptions x86_rotate_correct_partial.
Theorem x86_shiftdouble_correct_partial : forall `{FpuOps} c cfg kc kcp kd i s g g', x_ctx c cfg kc i s g ->
  In (x_mn i) [X_SHLD; X_SHRD] -> xspec i g = Some g' ->
  let k := cmask (op_bits (x_op0 i)) (rd_op (adv i g) (x_op2 i)) in k <> op_bits (x_op0 i) ->
  x_lifts c cfg kc kcp kd i s (forget ([fCF; fOF] ++ if k =? 0 then [fCF; fOF; fAF; fZF; fSF; fPF] else []) g') (s_ret s).
Proof.
  intros F c cfg kc kcp kd i s g g' C MN E k K.
  assert (X : xsupp kcp kd i (adv i g) /\ xext cfg i = [] /\ xlost cfg i (adv i g) = [fCF; fOF] ++ shift_lost k /\ xrets cfg i (s_ret s) = s_ret s).
  { unfold xsupp, xext, xlost, xrets. mns MN; rewrite MN; auto. }
  destruct X as (X1 & X2 & X3 & X4). unfold shift_lost in X3. rewrite <- X3, <- X4. apply whole_step; assumption.
Qed.
Print Assumptions x86_shiftdouble_correct_partial.
(** F15: a shift by zero changes ZF and CF. F16: ROL leaves CF undefined. F17:
    SHLD r16, r16, 16 keeps the destination. *)
Theorem x86_shift_flags_refuted :
  let i := xi_ex X_SHL (XReg 8 false 3) (XImm 8 0) XNone in
  wrong_flag i (fun _ => 1) (all_set true) fZF /\ wrong_flag i (fun _ => 1) (all_set true) fCF.
Proof. split; wflag. Qed.
Print Assumptions x86_shift_flags_refuted.
Theorem x86_rotate_flags_refuted : wrong_flag (xi_ex X_ROL (XReg 8 false 3) (XImm 8 1) XNone) (fun _ => 0x81) (all_set false) fCF.
Proof. wflag. Qed.
Print Assumptions x86_rotate_flags_refuted.
Theorem x86_shld16_refuted : wrong_reg (xi_ex X_SHLD (XReg 16 false 3) (XReg 16 false 2) (XImm 8 16)) (fun n => n) (all_set false) 3.
Proof. wreg. Qed.
Print Assumptions x86_shld16_refuted.
Example x86_shift_nv : let i := xi_ex X_SAR (XMem 16 (XMemOp (BReg 3) None 0 4 3 8)) (XReg 8 false 1) XNone in
  exists s g g', x_ctx c_x xcfg_ex kc_ex i s g /\ xspec i g = Some g' /\ cmask (op_bits (x_op0 i)) (rd_op (adv i g) (x_op1 i)) = 3 /\
   y_m g' 0x2007 <> y_m g 0x2007.
Proof.
  intros i. exists (xst_of (gex (fun n => if n =? 1 then 35 else 0x2002) (all_set false))), (gex (fun n => if n =? 1 then 35 else 0x2002) (all_set false)). eexists.
  split; [apply xctx_ex; reflexivity|]. split; [reflexivity|]. split; [reflexivity|]. vm_compute. discriminate.
Qed.
Example x86_rotate_nv : let i := xi_ex X_SHRD (XReg 32 false 3) (XReg 32 false 2) (XImm 8 4) in
  exists s g g', x_ctx c_x xcfg_ex kc_ex i s g /\ xspec i g = Some g' /\ cmask (op_bits (x_op0 i)) (rd_op (adv i g) (x_op2 i)) <> 32 /\
   y_r g' 3 = 0x20000000.
Proof.
  intros i. exists (xst_of (gex (fun n => n) (all_set false))), (gex (fun n => n) (all_set false)). eexists.
  split; [apply xctx_ex; reflexivity|]. split; [reflexivity|]. split; [discriminate|]. vm_compute. reflexivity.
Qed.

(** ** C29: multiplication and division *)
Theorem x86_mul_correct : forall `{FpuOps} c cfg kc kcp kd i s g g', x_ctx c cfg kc i s g ->
  In (x_mn i) [X_MUL; X_IMUL] -> xspec i g = Some g' -> x_lifts c cfg kc kcp kd i s g' (s_ret s).
Proof.
  intros F c cfg kc kcp kd i s g g' C MN E.
  assert (X : xsupp kcp kd i (adv i g) /\ xext cfg i = [] /\ xlost cfg i (adv i g) = [] /\ xrets cfg i (s_ret s) = s_ret s).
  { unfold xsupp, xext, xlost, xrets. mns MN; rewrite MN; auto. }
  destruct X as (X1 & X2 & X3 & X4). eapply whole_exact; eassumption.
Qed.
Print Assumptions x86_mul_correct.
(** [xspec] is [None] exactly if the divisor is zero or the quotient does not fit. *)
Theorem x86_div_correct : forall `{FpuOps} c cfg kc kcp kd i s g g' v, x_ctx c cfg kc i s g ->
  In (x_mn i) [X_DIV; X_IDIV] -> xspec i g = Some g' -> hiview_ok v (op_bits (x_op0 i)) g ->
  div_recog (match x_mn i with X_IDIV => true | _ => false end) (op_bits (x_op0 i)) v = Some kd ->
  x_lifts c cfg kc kcp kd i s g' (s_ret s).
Proof.
  intros F c cfg kc kcp kd i s g g' v C MN E V D.
  assert (W : 0 < op_bits (x_op0 i)).
  { pose proof (xc_wf _ _ _ _ _ _ C) as WF. unfold xwf in WF. apply andb_prop in WF as [WF _]. apply andb_prop in WF as [WF SH]. apply andb_prop in WF as [WF _]. apply andb_prop in WF as [W0 _].
    assert (R0 : op_rm (x_op0 i) = true). { unfold shape_ok in SH. mns MN; rewrite MN in SH; repeat match goal with H : _ && _ = true |- _ => apply andb_prop in H; destruct H end; assumption. }
    pose proof (bitsok _ W0 (op_rm_val _ R0)). lia. }
  pose proof (div_recog_sound _ _ _ _ _ W V D) as KS.
  assert (X : xsupp kcp kd i (adv i g) /\ xext cfg i = [] /\ xlost cfg i (adv i g) = [] /\ xrets cfg i (s_ret s) = s_ret s).
  { unfold xsupp, xext, xlost, xrets. mns MN; rewrite MN; auto. }
  destruct X as (X1 & X2 & X3 & X4). eapply whole_exact; eassumption.
Qed.
Print Assumptions x86_div_correct.
(** F18: if RDX is known to be RAX shifted right arithmetically by an amount that
    is not constant, lifting IDIV dereferences a null pointer; only then. *)
Theorem x86_idiv_null_refuted : forall sign sz v, div_recog sign sz v = None <-> sign = true /\ v = HAshr true None.
Proof.
  intros sign sz v. unfold div_recog. destruct sign; [|split; [discriminate|intros [E _]; discriminate]].
  destruct v as [z|[|] [n|]|]; split; try discriminate; intros; try (split; reflexivity); try reflexivity; destruct H as [_ E]; discriminate.
Qed.
Print Assumptions x86_idiv_null_refuted.
Example x86_div_nv : let i := xi_ex X_IDIV (XReg 32 false 3) XNone XNone in
  exists s g g', x_ctx c_x xcfg_ex kc_ex i s g /\ xspec i g = Some g' /\ hiview_ok (HAshr true (Some 31)) 32 g /\
   div_recog true 32 (HAshr true (Some 31)) = Some DSext /\ y_r g' 0 = 2^32 - 3 /\ y_r g' 2 = 2^32 - 1.
Proof.
  intros i. set (r := fun n => if n =? 0 then 2^32 - 7 else if n =? 2 then 2^32 - 1 else 2).
  exists (xst_of (gex r (all_set false))), (gex r (all_set false)). eexists.
  split; [apply xctx_ex; reflexivity|]. split; [reflexivity|]. repeat split.
Qed.
Example x86_mul_nv : let i := xi_ex X_IMUL (XReg 16 false 3) (XReg 16 false 2) (XImm 16 (-3)) in
  exists s g g', x_ctx c_x xcfg_ex kc_ex i s g /\ xspec i g = Some g' /\ y_r g' 3 = 0x1fffa /\ y_f g' fOF = Some false.
Proof.
  intros i. set (r := fun n => if n =? 3 then 0x10000 else n).
  exists (xst_of (gex r (all_set true))), (gex r (all_set true)). eexists.
  split; [apply xctx_ex; reflexivity|]. split; [reflexivity|]. repeat split.
Qed.

(** ** C30: sub-register writes *)
(** MOV to a register operand, bit by bit; other registers, memory and flags keep
    their values. *)
Definition reg_of (o : xopnd) : Z := match o with XReg _ hi r => if hi then r - 4 else r | _ => -1 end.
Definition mov_bit (o : xopnd) (old v n : Z) : bool :=
  match o with
  | XReg w true _ => if (8 <=? n) && (n <? 16) then Z.testbit v (n - 8) else Z.testbit old n
  | XReg w false _ => if n <? w then Z.testbit v n else if w =? 32 then false else Z.testbit old n
  | _ => false
  end.
Theorem x86_subreg_write : forall `{FpuOps} c cfg kc kcp kd i s g w hi r, x_ctx c cfg kc i s g ->
  x_mn i = X_MOV -> x_op0 i = XReg w hi r -> let v := rd_op (adv i g) (x_op1 i) in op_bits (x_op1 i) = w ->
  exists l s' z, lift_x86 c cfg kc kcp None kd i = (true, CPlain l) /\ run c s l = Ok s' /\
    s_reg s' (GP (reg_of (x_op0 i))) = Some z /\ inr 64 z /\
    (forall n, 0 <= n < 64 -> Z.testbit z n = mov_bit (x_op0 i) (y_r g (reg_of (x_op0 i))) v n) /\
    (forall k, 0 <= k < 16 -> k <> reg_of (x_op0 i) -> s_reg s' (GP k) = Some (y_r g k)) /\
    (forall x, s_mem s' x = y_m g x) /\ (forall f b, y_f g f = Some b -> flag_is s' f b).
Proof.
  intros F c cfg kc kcp kd i s g w hi r C MN OP v W1.
  destruct (whole_exact c cfg kc kcp kd i s g (wr_op (adv i g) (x_op0 i) (S_ (op_bits (x_op1 i)) v))) as (l & s' & L & R & X & _ & _); try assumption;
    try (unfold xsupp, xext, xlost, xrets; rewrite MN; reflexivity || exact I).
  { unfold xspec, isa. rewrite MN. reflexivity. }
  pose proof (xc_wf _ _ _ _ _ _ C) as WF. unfold xwf in WF. apply andb_prop in WF as [WF _]. apply andb_prop in WF as [WF _]. apply andb_prop in WF as [WF _]. apply andb_prop in WF as [W0 _].
  pose proof (xc_rel _ _ _ _ _ _ C) as R0.
  rewrite OP in *. cbn [wf_op reg_of mov_bit] in *. rewrite W1 in X.
  assert (SV : forall n, 0 <= n < w -> Z.testbit (S_ w v) n = Z.testbit v n).
  { intros n N. rewrite <- (Z.mod_pow2_bits_low (S_ w v) w n), <- (Z.mod_pow2_bits_low v w n) by lia. f_equal. apply (trunc_S w v). lia. }
  set (q := if hi then r - 4 else r). assert (Q : 0 <= q < 16). { unfold q. destruct hi; [lia|]. apply andb_prop in W0 as [_ W0]. unfold okr in W0. lia. }
  exists l, s', (y_r (wr_op (adv i g) (XReg w hi r) (S_ w v)) q). split; [exact L|]. split; [exact R|]. split; [exact (xr_r _ _ X q Q)|]. split; [exact (xr_rr _ _ X q Q)|].
  pose proof (xr_rr _ _ R0 q Q) as QR. unfold inr in QR.
  split; [|split; [|split]].
  - intros n N. unfold wr_op, loc_of. destruct hi; cbn [wr_loc wr_hi wr_reg set_r y_r adv set_ip]; fold q; rewrite Z.eqb_refl.
    + rewrite hi_bits by lia. destruct ((8 <=? n) && (n <? 16)) eqn:B; [|reflexivity]. apply SV. lia.
    + apply andb_prop in W0 as [W0 _]. rewrite reg_merge_bits by assumption. unfold bit_after. destruct (n <? w) eqn:B; [apply SV; lia|reflexivity].
  - intros k K N. rewrite (xr_r _ _ X k K). unfold wr_op, loc_of. f_equal. unfold q in N. destruct hi; cbn [wr_loc wr_hi wr_reg set_r y_r adv set_ip]; (destruct (k =? _) eqn:B; [lia|reflexivity]).
  - intros x. rewrite (xr_m _ _ X x). destruct hi; reflexivity.
  - intros f b E. apply (xr_f _ _ X). unfold wr_op, loc_of. destruct hi; exact E.
Qed.
Print Assumptions x86_subreg_write.
(** Reading a sub-register as source of a move to memory or a register. *)
Theorem x86_subreg_read : forall g w hi r n, wf_op (XReg w hi r) = true -> 0 <= n ->
  Z.testbit (rd_op g (XReg w hi r)) n = if n <? w then Z.testbit (y_r g (if hi then r - 4 else r)) (if hi then n + 8 else n) else false.
Proof.
  intros g w hi r n W N. cbn [wf_op rd_op loc_of] in *. destruct hi; cbn [rd_loc].
  - assert (w = 8) as -> by lia. change 256 with (2 ^ 8). destruct (n <? 8) eqn:Q.
    + rewrite Z.mod_pow2_bits_low by lia. apply Z.div_pow2_bits; lia.
    + apply Z.mod_pow2_bits_high. lia.
  - unfold U. apply andb_prop in W as [W _]. unfold okw in W. destruct (n <? w) eqn:Q; [apply Z.mod_pow2_bits_low; lia|apply Z.mod_pow2_bits_high; lia].
Qed.
Print Assumptions x86_subreg_read.
Example x86_subreg_nv : let i := xi_ex X_MOV (XReg 8 true 7) (XReg 8 true 4) XNone in
  exists s g, x_ctx c_x xcfg_ex kc_ex i s g /\ op_bits (x_op1 i) = 8 /\ rd_op (adv i g) (x_op1 i) = 0x12 /\ y_r g 3 = 0x3456.
Proof.
  intros i. set (r := fun n => if n =? 0 then 0x1234 else 0x3456).
  exists (xst_of (gex r (all_set true))), (gex r (all_set true)).
  split; [apply xctx_ex; reflexivity|]. repeat split.
Qed.

(** ** C31: effective addresses *)
(** The address, independent of [ea]: base + index * scale + displacement at the
    address size, plus the FS or GS base, modulo 2^64. *)
Definition mem_address (g : xst) (m : xmem) (next_ip : Z) : Z :=
  let b := match m_base m with BNone => 0 | BRip => next_ip | BReg r => y_r g r end in
  let x := match m_index m with None => 0 | Some r => y_r g r * 2 ^ m_lscale m end in
  let off := (b + x + m_off m) mod (if m_asz m =? 4 then 2^32 else 2^64) in
  let seg := if m_seg m =? 4 then y_fs g else if m_seg m =? 5 then y_gs g else 0 in
  (off + seg) mod 2^64.
(** A load MOV r64, [m] puts the eight bytes at that address into the register;
    a store MOV [m], r64 changes exactly these bytes. *)
Theorem x86_address_load : forall `{FpuOps} c cfg kc kcp kd i s g r m, x_ctx c cfg kc i s g ->
  x_mn i = X_MOV -> x_op0 i = XReg 64 false r -> x_op1 i = XMem 64 m ->
  exists l s', lift_x86 c cfg kc kcp None kd i = (true, CPlain l) /\ run c s l = Ok s' /\
    s_reg s' (GP r) = Some (rd_mem (y_m g) (mem_address g m ((y_ip g + x_len i) mod 2^64)) 8).
Proof.
  intros F c cfg kc kcp kd i s g r m C MN O0 O1.
  destruct (whole_exact c cfg kc kcp kd i s g (wr_op (adv i g) (x_op0 i) (S_ (op_bits (x_op1 i)) (rd_op (adv i g) (x_op1 i))))) as (l & s' & L & R & X & _ & _); try assumption;
    try (unfold xsupp, xext, xlost, xrets; rewrite MN; reflexivity || exact I).
  { unfold xspec, isa. rewrite MN. reflexivity. }
  pose proof (xc_wf _ _ _ _ _ _ C) as WF. unfold xwf in WF. apply andb_prop in WF as [WF _]. apply andb_prop in WF as [WF _]. apply andb_prop in WF as [WF _]. apply andb_prop in WF as [W0 W1].
  rewrite O0 in *. rewrite O1 in *. cbn [wf_op op_bits] in *. apply andb_prop in W0 as [_ W0]. apply andb_prop in W1 as [_ WM].
  exists l, s'. split; [exact L|]. split; [exact R|]. rewrite (xr_r _ _ X r) by (unfold okr in W0; lia). f_equal.
  unfold wr_op, loc_of. cbn [wr_loc wr_reg set_r y_r]. rewrite Z.eqb_refl. unfold reg_merge. cbn [Z.eqb Pos.eqb rd_op loc_of rd_loc].
  change (bytes_of 64) with 8%nat. assert (EA : ea (adv i g) m = mem_address g m ((y_ip g + x_len i) mod 2 ^ 64)).
  { unfold ea, ea_off, mem_address, seg_base, U. cbn [adv set_ip y_ip y_r y_fs y_gs]. assert (AS : m_asz m = 4 \/ m_asz m = 8) by (unfold wf_mem in WM; lia). destruct AS as [-> | ->]; reflexivity. }
  rewrite EA. change U with trunc. rewrite trunc_S by lia. apply trunc_small. exact (rd_mem_inr 8 _ _).
Qed.
Print Assumptions x86_address_load.
Theorem x86_address_store : forall `{FpuOps} c cfg kc kcp kd i s g r m, x_ctx c cfg kc i s g ->
  x_mn i = X_MOV -> x_op0 i = XMem 64 m -> x_op1 i = XReg 64 false r ->
  exists l s', lift_x86 c cfg kc kcp None kd i = (true, CPlain l) /\ run c s l = Ok s' /\
    (forall x, s_mem s' x = wr_mem (y_m g) (mem_address g m ((y_ip g + x_len i) mod 2^64)) 8 (y_r g r) x) /\
    (forall n, 0 <= n < 16 -> s_reg s' (GP n) = Some (y_r g n)).
Proof.
  intros F c cfg kc kcp kd i s g r m C MN O0 O1.
  destruct (whole_exact c cfg kc kcp kd i s g (wr_op (adv i g) (x_op0 i) (S_ (op_bits (x_op1 i)) (rd_op (adv i g) (x_op1 i))))) as (l & s' & L & R & X & _ & _); try assumption;
    try (unfold xsupp, xext, xlost, xrets; rewrite MN; reflexivity || exact I).
  { unfold xspec, isa. rewrite MN. reflexivity. }
  pose proof (xc_wf _ _ _ _ _ _ C) as WF. unfold xwf in WF. apply andb_prop in WF as [WF _]. apply andb_prop in WF as [WF _]. apply andb_prop in WF as [WF _]. apply andb_prop in WF as [W0 W1].
  pose proof (xc_rel _ _ _ _ _ _ C) as R0. rewrite O0 in *. rewrite O1 in *. cbn [wf_op op_bits] in *. apply andb_prop in W0 as [_ WM]. apply andb_prop in W1 as [_ W1].
  assert (EA : ea (adv i g) m = mem_address g m ((y_ip g + x_len i) mod 2 ^ 64)).
  { unfold ea, ea_off, mem_address, seg_base, U. cbn [adv set_ip y_ip y_r y_fs y_gs]. assert (AS : m_asz m = 4 \/ m_asz m = 8) by (unfold wf_mem in WM; lia). destruct AS as [-> | ->]; reflexivity. }
  exists l, s'. split; [exact L|]. split; [exact R|]. split; [|intros n N; exact (xr_r _ _ X n N)].
  intros x. rewrite (xr_m _ _ X x). unfold wr_op, loc_of. cbn [wr_loc set_m y_m]. rewrite EA. change (bytes_of 64) with 8%nat.
  cbn [adv set_ip y_m]. cbn [rd_op loc_of rd_loc adv set_ip y_r]. 
  rewrite <- (wr_mem_trunc 64 _ _ (S_ 64 _) x eq_refl : _ = wr_mem _ _ 8 _ x). change U with trunc. rewrite trunc_S by lia.
  rewrite (trunc_small 64 (y_r g r)) by apply (xr_rr _ _ R0 r ltac:(unfold okr in W1; lia)). exact (wr_mem_trunc 64 _ _ _ x eq_refl).
Qed.
Print Assumptions x86_address_store.
(** LEA yields the offset without segment base. *)
Theorem x86_lea_correct : forall `{FpuOps} c cfg kc kcp kd i s g g', x_ctx c cfg kc i s g ->
  x_mn i = X_LEA -> (forall w m, x_op1 i = XMem w m -> m_base m = BRip -> m_asz m = 8) -> xspec i g = Some g' ->
  x_lifts c cfg kc kcp kd i s g' (s_ret s).
Proof.
  intros F c cfg kc kcp kd i s g g' C MN RIP E.
  eapply whole_exact; try eassumption; unfold xsupp, xext, xlost, xrets; rewrite MN; reflexivity || assumption.
Qed.
Print Assumptions x86_lea_correct.
(** F19: LEA of an EIP-relative operand is not truncated to 32 bits. F20: with an
    FS or GS override and 32-bit address size the lifter builds ill-typed IR. F21:
    RIP-relative operands with an FS or GS override trip an assertion. F22: JMP
    and CALL through memory ignore FS and GS overrides. F23: XLATB with
    32-bit addresses does not wrap at 2^32. *)
Theorem x86_lea_eip_refuted :
  let i := XInst X_LEA (XReg 64 false 3) (XMem 64 (XMemOp BRip None 0 16 3 4)) XNone 8 8 false false false 0x300001000 4 in
  let g := xst_ex (fun _ => 0) (all_set true) 0x300001000 in
  exists g', xwf i = true /\ xspec i g = Some g' /\ y_r g' 3 = 0x1014 /\ cell_after c_x xcfg_ex i (xst_of g) (GP 3) = Ok (Some 0x300001014).
Proof. eexists. split; [reflexivity|]. split; [reflexivity|]. split; vm_compute; reflexivity. Qed.
Print Assumptions x86_lea_eip_refuted.
Theorem x86_seg32_refuted : forall r f,
  let i := xi_ex X_MOV (XReg 64 false 1) (XMem 64 (XMemOp (BReg 3) None 0 16 4 4)) XNone in
  xwf i = true /\ (exists g', xspec i (gex r f) = Some g') /\ cell_after c_x xcfg_ex i (xst_of (gex r f)) (GP 1) = TyErr.
Proof. intros r f. split; [reflexivity|]. split; [eexists; reflexivity|]. reflexivity. Qed.
Print Assumptions x86_seg32_refuted.
Theorem x86_seg_rip_refuted : forall r f,
  let i := xi_ex X_MOV (XReg 64 false 1) (XMem 64 (XMemOp BRip None 0 16 4 8)) XNone in
  xwf i = true /\ (exists g', xspec i (gex r f) = Some g') /\ cell_after c_x xcfg_ex i (xst_of (gex r f)) (GP 1) = TyErr.
Proof. intros r f. split; [reflexivity|]. split; [eexists; reflexivity|]. reflexivity. Qed.
Print Assumptions x86_seg_rip_refuted.
Theorem x86_jmp_seg_refuted :
  let i := xi_ex X_JMP (XMem 64 (XMemOp BNone None 0 0x2000 4 8)) XNone XNone in
  exists s g g' l s' v, x_ctx c_x xcfg_ex kc_ex i s g /\ xspec i g = Some g' /\
    lift_x86 c_x xcfg_ex kc_ex kc_ex None DNone i = (true, CPlain l) /\ run (H := fpu0) c_x s l = Ok s' /\
    pc_value c_x (s_pc s') 0 = Ok (V (TInt 64) v) /\ v <> y_ip g'.
Proof.
  intros i. exists (xst_of (gex (fun _ => 0) (all_set true))), (gex (fun _ => 0) (all_set true)). do 4 eexists.
  split; [apply xctx_ex; reflexivity|]. split; [reflexivity|]. split; [reflexivity|]. split; [reflexivity|]. split; [vm_compute; reflexivity|]. vm_compute. discriminate.
Qed.
Print Assumptions x86_jmp_seg_refuted.
Theorem x86_xlat32_refuted : wrong_reg (XInst X_XLATB XNone XNone XNone 8 4 false false false 0x1000 4) (fun n => if n =? 3 then 0xffffffff else 1) (all_set true) 0.
Proof. wreg. Qed.
Print Assumptions x86_xlat32_refuted.
Example x86_address_nv : let m := XMemOp (BReg 2) (Some 1) 2 (-8) 5 4 in let cfgn := XCfg None None false false true in
  let i := xi_ex X_MOV (XReg 64 false 3) (XMem 64 m) XNone in
  exists s g, x_ctx c_xpic cfgn kc_ex i s g /\ mem_address g m 0 = 0x800000 + 0x10 * 5 - 8 + 0x1000.
Proof.
  intros m cfgn i. set (r := fun n => if n =? 1 then 0x700000014 else 0x5500001000). set (g := xst_ex r (all_set true) 0x555000).
  exists (xst_of g), g. split; [|vm_compute; reflexivity].
  split; try reflexivity; [apply xrel_ex|intros n z _ E; discriminate].
Qed.
