(** Sequences of instructions, the recogniser for short divisions, and concrete
    states for the x86-64 theorems. *)

From Coq Require Import ZArith Lia ZifyBool List Bool.
From Verif Require Import Bits IR Facet Dsl Rv64 Rv64Spec Rv64Sim Rv64Arith Rv64Int Rv64Ex X86 X86Spec X86Arith X86Sim X86Ops
  X86Gp X86Gp2 X86Gp3 X86Gp4 X86Gp5 X86Gp6 X86Gp7 X86Step X86Cond.
Import ListNotations.
Open Scope Z_scope.
Ltac Zify.zify_post_hook ::= Z.div_mod_to_equations.

(** ** Straight-line sequences *)
(** An instruction with what the lifter knows while lifting it. *)
Record xitem := XItem { xi_kc : areg -> konst; xi_kcp : areg -> konst; xi_kd : kdivk; xi_i : xinst }.
(** Architectural execution of a sequence at contiguous addresses, with the flags
    of [xlost] forgotten after each instruction. *)
Inductive xblock (c : cenv) (cfg : xcfg) : xst -> list xitem -> xst -> Prop :=
| xb_nil : forall g, xblock c cfg g [] g
| xb_cons : forall it l g g1 g2, let i := xi_i it in
    xwf i = true -> good_op cfg (x_op0 i) = true -> good_op cfg (x_op1 i) = true -> good_op cfg (x_op2 i) = true ->
    y_ip g = addr_pc_base c (x_start i) -> xkc_sound (xi_kc it) g -> xsupp (xi_kcp it) (xi_kd it) i (adv i g) ->
    xext cfg i = [] -> x_mn i <> X_RET ->
    xspec i g = Some g1 -> xblock c cfg (forget (xlost cfg i (adv i g)) g1) l g2 -> xblock c cfg g (it :: l) g2.
(** The code of a sequence; [None]: some instruction is not lifted to straight-line code. *)
Fixpoint lift_items (c : cenv) (cfg : xcfg) (l : list xitem) : option (list stm) :=
  match l with
  | [] => Some []
  | it :: l' =>
    match lift_x86 c cfg (xi_kc it) (xi_kcp it) None (xi_kd it) (xi_i it), lift_items c cfg l' with
    | (true, CPlain k), Some k' => Some (k ++ k')
    | _, _ => None
    end
  end.
Lemma block_step : forall `{FpuOps} c cfg g l g', c_arch c = X86_64 -> gbase_ok c -> xblock c cfg g l g' ->
  forall s, xrel s g -> exists k s', lift_items c cfg l = Some k /\ run c s k = Ok s' /\ xrel s' g' /\ s_ret s' = s_ret s /\
    (l <> [] -> pc_value c (s_pc s') 0 = Ok (V (TInt 64) (y_ip g'))).
Proof.
  intros F c cfg g l g' HA GB B. induction B as [g|it l g g1 g2 i W O0 O1 O2 IP KC SU XE NR E B IH]; intros s R.
  - exists [], s. split; [reflexivity|]. split; [reflexivity|]. split; [exact R|]. split; [reflexivity|]. intros N. elim N. reflexivity.
  - destruct (whole_step c cfg (xi_kc it) (xi_kcp it) (xi_kd it) i s g g1) as (k1 & s1 & L1 & R1 & D1 & D2 & D3); try assumption.
    { split; assumption. }
    destruct (IH s1 D1) as (k2 & s2 & L2 & R2 & X2 & T2 & P2).
    exists (k1 ++ k2), s2. cbn [lift_items]. fold i. rewrite L1, L2. split; [reflexivity|]. split; [rewrite run_app, R1; exact R2|].
    split; [exact X2|]. split.
    + rewrite T2, D3. unfold xrets. destruct (x_mn i); try reflexivity. elim NR. reflexivity.
    + intros _. destruct l as [|it' l'].
      * cbn [lift_items] in L2. injection L2 as <-. injection R2 as <-. inversion B; subst. exact D2.
      * apply P2. discriminate.
Qed.

(** ** Recognition of short dividends *)
(** What the value of the high half of the dividend is made of: a constant, an
    arithmetic right shift (whether of the value of the low half, and by which
    constant, if it is one), something else. *)
Inductive hiview := HConst (z : Z) | HAshr (same : bool) (amt : option Z) | HOther.
(** lifter-gp.cc:384-397. [None]: a null pointer is dereferenced. *)
Definition div_recog (sign : bool) (sz : Z) (v : hiview) : option kdivk :=
  if sign then
    match v with
    | HAshr true (Some n) => Some (if n =? sz - 1 then DSext else DNone)
    | HAshr true None => None
    | _ => Some DNone
    end
  else Some (match v with HConst z => if U sz z =? 0 then DZero else DNone | _ => DNone end).
(** The view describes the value of RDX. *)
Definition hiview_ok (v : hiview) (w : Z) (g : xst) : Prop :=
  match v with
  | HConst z => U w (y_r g 2) = U w z
  | HAshr true (Some n) => U w (y_r g 2) = U w (S_ w (y_r g 0) / 2 ^ n)
  | _ => True
  end.
Lemma div_recog_sound : forall sign w v kd g, 0 < w -> hiview_ok v w g -> div_recog sign w v = Some kd -> kd_sound kd w g.
Proof.
  intros sign w v kd g W V E. unfold div_recog in E. destruct sign.
  - destruct v as [z|[|] [n|]|]; try discriminate; injection E as <-; try exact I.
    destruct (n =? w - 1) eqn:Q; [|exact I]. cbn [kd_sound hiview_ok] in *. rewrite V. assert (n = w - 1) as -> by lia.
    unfold sf_of, S_, U. assert (P : 2 ^ w = 2 * 2 ^ (w - 1)) by (rewrite <- Z.pow_succ_r by lia; f_equal; lia). assert (0 < 2 ^ (w - 1)) by lia.
    assert (R : 0 <= y_r g 0 mod 2 ^ w < 2 ^ w) by (apply Z.mod_pos_bound; lia). set (x := y_r g 0 mod 2 ^ w) in *. clearbody x.
    destruct (x <? 2 ^ (w - 1)) eqn:Q1.
    + replace (2 ^ (w - 1) <=? x) with false by lia. rewrite Z.div_small by lia. apply Z.mod_0_l. lia.
    + replace (2 ^ (w - 1) <=? x) with true by lia.
      assert ((x - 2 ^ w) / 2 ^ (w - 1) = -1) as ->. { symmetry. apply Z.div_unique with (x - 2 ^ (w - 1)); lia. }
      symmetry. apply Z.mod_unique with (-1); lia.
  - injection E as <-. destruct v as [z| |]; try exact I. destruct (U w z =? 0) eqn:Q; [|exact I]. cbn [kd_sound hiview_ok] in *. lia.
Qed.

(** ** Concrete states *)
Definition xst_ex (r : Z -> Z) (f : xflag -> option bool) (ip : Z) : xst :=
  Xst (fun n => U 64 (r n)) f 0x700000 0x800000 ip (fun a => (a + a / 0x10000 + a / 0x100000000) mod 256).
Definition xst_of (g : xst) : st :=
  St (fun r => match r with
      | GP 257 => Some (y_fs g) | GP 256 => Some (y_gs g)
      | GP n => Some (y_r g n)
      | FLAG 0 => option_map b2z (y_f g fZF) | FLAG 1 => option_map b2z (y_f g fSF)
      | FLAG 2 => option_map (fun b : bool => if b then 0 else 1) (y_f g fPF)
      | FLAG 3 => option_map b2z (y_f g fCF) | FLAG 4 => option_map b2z (y_f g fOF)
      | FLAG 5 => option_map b2z (y_f g fAF) | FLAG 6 => option_map b2z (y_f g fDF)
      | _ => None end)
     (PcVal (Poison (TInt 64))) (y_m g) (fun _ => None) false.
Definition c_x : cenv := CEnv X86_64 None 0 None 0 (fun _ u => u).
Definition c_xpic : cenv := CEnv X86_64 (Some 0x555000) 0x1000 (Some 0x8000) 0x8000 (fun _ u => u).
Definition xcfg_ex : xcfg := XCfg None None false false false.
Lemma xrel_ex : forall r f ip, xrel (xst_of (xst_ex r f ip)) (xst_ex r f ip).
Proof.
  intros r f ip. split; cbn [xst_of xst_ex s_reg s_mem y_r y_f y_fs y_gs y_m].
  - intros n N. destruct n as [|p|p]; [reflexivity| |lia]. assert (Z.pos p <> 256 /\ Z.pos p <> 257) as [A B] by lia.
    do 9 (destruct p as [p|p|]; try reflexivity; try lia).
  - intros. apply trunc_range. lia.
  - reflexivity.
  - split; [lia|reflexivity].
  - reflexivity.
  - split; [lia|reflexivity].
  - intros fg b E. destruct fg; cbn [flag_is cell]; unfold xst_of; cbn [s_reg xst_ex y_f]; cbv [CF PF AF ZF SF OF DF]; rewrite ?E; cbn [option_map]; try reflexivity.
    destruct b; eexists; (split; [reflexivity|split; [unfold inr; lia|reflexivity]]).
  - reflexivity.
Qed.
(** An instruction at 0x1000. *)
Definition xi_ex (m : xmn) (o0 o1 o2 : xopnd) : xinst := XInst m o0 o1 o2 8 8 false false false 0x1000 4.
Definition all_set (b : bool) : xflag -> option bool := fun _ => Some b.
Lemma xctx_ex : forall i r f, x_start i = 0x1000 -> xwf i = true -> good_op xcfg_ex (x_op0 i) = true -> good_op xcfg_ex (x_op1 i) = true ->
  good_op xcfg_ex (x_op2 i) = true -> x_ctx c_x xcfg_ex kc_ex i (xst_of (xst_ex r f 0x1000)) (xst_ex r f 0x1000).
Proof.
  intros i r f ST W O0 O1 O2. split; try assumption; try reflexivity.

  - apply xrel_ex.
  - intros n z _ E. discriminate.
  - rewrite ST. reflexivity.
Qed.
(** Register and flag cells after running the lifted code of a straight-line instruction. *)
Definition cell_after (c : cenv) (cfg : xcfg) (i : xinst) (s : st) (r : areg) : res (option Z) :=
  match lift_x86 c cfg kc_ex kc_ex None DNone i with
  | (true, CPlain l) => match run (H := fpu0) c s l with Ok s' => Ok (s_reg s' r) | UB => UB | TyErr => TyErr end
  | _ => TyErr
  end.

(** ** Refutation witnesses *)
Ltac mns H := cbn [In] in H; repeat destruct H as [H|H]; try contradiction; symmetry in H.
Notation gex r f := (xst_ex r f 0x1000).
(** Witness of a wrong register: the context is met, the architecture defines the
    instruction, the lifted code runs, and register [n] differs. *)
Definition wrong_reg (i : xinst) (r : Z -> Z) (f : xflag -> option bool) (n : Z) : Prop :=
  exists g' v, x_ctx c_x xcfg_ex kc_ex i (xst_of (gex r f)) (gex r f) /\ xspec i (gex r f) = Some g' /\
    cell_after c_x xcfg_ex i (xst_of (gex r f)) (GP n) = Ok (Some v) /\ v <> y_r g' n.
(** Witness of a wrong or undefined flag that the architecture defines. *)
Definition wrong_flag (i : xinst) (r : Z -> Z) (f : xflag -> option bool) (fg : xflag) : Prop :=
  exists g' v b, x_ctx c_x xcfg_ex kc_ex i (xst_of (gex r f)) (gex r f) /\ xspec i (gex r f) = Some g' /\
    cell_after c_x xcfg_ex i (xst_of (gex r f)) (cell fg) = Ok v /\ y_f g' fg = Some b /\ v <> Some (b2z b) /\ fg <> fPF.
Ltac wreg := do 2 eexists; split; [apply xctx_ex; reflexivity|]; split; [reflexivity|]; split; [vm_compute; reflexivity|vm_compute; discriminate].
Ltac wflag := do 3 eexists; split; [apply xctx_ex; reflexivity|]; split; [reflexivity|]; split; [vm_compute; reflexivity|split; [vm_compute; reflexivity|split; vm_compute; discriminate]].

