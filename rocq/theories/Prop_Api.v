(** Properties C70 (configuration calls), C71 (overridden instructions) and C72 (types of
    the functions given by the user). *)

From Coq Require Import ZArith Lia ZifyBool List Bool String.
From Verif Require Import Bits IR Facet Dsl Layout Rv64 Rv64Spec X86 A64Base A64 Api Override ExtCall Rv64Ex Prop_Config.
Import ListNotations.
Open Scope Z_scope.

(** ** C70: every option has the value given by the last call that names it
    [sel]: the value a call gives to the option, if it names it. [v] is the value of the
    last such call in [l]; without one it is [d]. *)
Definition latest {A} (sel : apicall -> option A) (l : list apicall) (d v : A) : Prop :=
  (exists l1 k l2, l = l1 ++ k :: l2 /\ sel k = Some v /\ forall k', In k' l2 -> sel k' = None) \/
  (forall k, In k l -> sel k = None) /\ v = d.
(** A call that names an architecture which is known and compiled in. *)
Definition selects (b : built) (k : apicall) : option arch :=
  match k with
  | ll_config_set_architecture s => match arch_name s with Some a => if is_built b a then Some a else None | None => None end
  | _ => None
  end.

Lemma latest_calls : forall A b (f : llcfg -> A) sel,
  (forall c k c', api_call b c k = Some c' -> f c' = match sel k with Some v => v | None => f c end) ->
  forall l c c', api_calls b c l = Some c' -> latest sel l (f c) (f c').
Proof.
  intros A b f sel S. induction l as [|k l IH]; intros c c' E; cbn [api_calls] in E.
  - injection E as <-. right. split; [intros k []|reflexivity].
  - destruct (api_call b c k) as [c1|] eqn:E1; [|discriminate E]. specialize (S c k c1 E1). specialize (IH c1 c' E).
    destruct IH as [(l1 & k' & l2 & -> & F & N)|[N F]].
    + left. exists (k :: l1), k', l2. auto.
    + rewrite S in F. destruct (sel k) as [v|] eqn:K.
      * left. exists [], k, l. rewrite F. auto.
      * right. split; [|exact F]. intros k' [<-|I]; [exact K|exact (N k' I)].
Qed.
Ltac one_call := let c := fresh "c" in let k := fresh "k" in let c' := fresh "c'" in let E := fresh "E" in
  intros c k c' E; destruct k; cbn [api_call] in E; try match type of E with match ?v with _ => _ end = _ => destruct v; [|discriminate E] end; try (injection E as <-; reflexivity).

Theorem config_options_latest : forall b l c, api_calls b (ll_config_new b) l = Some c ->
  latest (fun k => match k with ll_config_enable_overflow_intrinsics e => Some e | _ => None end) l false (g_overflow c) /\
  latest (fun k => match k with ll_config_enable_fast_math e => Some e | _ => None end) l false (g_fast_math c) /\
  latest (fun k => match k with ll_config_set_call_ret_clobber_flags e => Some e | _ => None end) l false (g_clobber c) /\
  latest (fun k => match k with ll_config_set_use_native_segment_base e => Some e | _ => None end) l false (g_native_seg c) /\
  latest (fun k => match k with ll_config_enable_verify_ir e => Some e | _ => None end) l false (g_verify c) /\
  latest (fun k => match k with ll_config_set_position_independent_code e => Some e | _ => None end) l false (g_pic c) /\
  latest (fun k => match k with ll_config_set_sptr_addrspace n => Some n | _ => None end) l 0 (g_sptr_as c) /\
  latest (fun k => match k with ll_config_set_global_base a v => Some (a, v) | _ => None end) l (0, None) (g_gbase_addr c, g_gbase c) /\
  latest (fun k => match k with ll_config_set_pc_base a v => Some (a, v) | _ => None end) l (0, None) (g_pcbase_addr c, g_pcbase c) /\
  (forall t, latest (fun k => match k with ll_config_set_instr_impl t' v => if t' =? t then Some v else None | _ => None end) l None (g_overrides c t)) /\
  latest (fun k => match k with ll_config_set_tail_func v => Some v | _ => None end) l None (g_tail c) /\
  latest (fun k => match k with ll_config_set_call_func v => Some v | _ => None end) l None (g_call c) /\
  latest (fun k => match k with ll_config_set_syscall_impl v => Some v | _ => None end) l None (g_syscall c) /\
  latest (fun k => match k with ll_config_set_cpuinfo_func v => Some v | _ => None end) l None (g_cpuinfo c) /\
  latest (fun k => match k with ll_config_set_instr_marker v => Some v | _ => None end) l None (g_marker c) /\
  latest (selects b) l (if b_x86 b then X86_64 else ArchInvalid) (g_arch c).
Proof.
  intros b l c E.
  assert (AR : forall c s c', Some (fst (set_architecture b c s)) = Some c' -> c' = set_arch c (g_arch c') (g_cconv c')).
  { intros d s c' Q. injection Q as <-. pose proof (set_architecture_correct b d s) as X. destruct (set_architecture b d s) as [c' ok]. cbn [fst].
    assert (R : d = set_arch d (g_arch d) (g_cconv d)) by (destruct d; reflexivity).
    destruct (arch_name s) as [a|]; [destruct (is_built b a)|]; [|destruct X as [_ ->]; exact R..]. destruct X as (_ & X & _). rewrite X at 1. rewrite X. reflexivity. }
  repeat split; try intro t;
    match goal with |- latest ?sel l ?d ?v => let F := eval pattern c in v in match F with ?f _ => apply (latest_calls _ b f sel) with (c := ll_config_new b) end end; try exact E; clear E;
    try (one_call; cbn [selects]; match goal with Q : Some (fst _) = Some _ |- _ => rewrite (AR _ _ _ Q); reflexivity end).
  - one_call.
    + injection E as <-. cbn [g_overrides]. rewrite (Z.eqb_sym t0 t). destruct (t =? t0); reflexivity.
    + rewrite (AR _ _ _ E). reflexivity.
  - one_call. injection E as <-. pose proof (set_architecture_correct b c0 s) as X. destruct (set_architecture b c0 s) as [c' ok]. cbn [fst selects].
    destruct (arch_name s) as [a|]; [destruct (is_built b a)|]; [|destruct X as [_ ->]; reflexivity..]. destruct X as (_ & X & _). rewrite X. reflexivity.
Qed.
Print Assumptions config_options_latest.
(** The calls are defined, whatever their order, unless one gives a null pointer to
    ll_config_set_instr_impl or ll_config_set_syscall_impl. *)
Theorem config_calls_defined : forall b l c, api_calls b c l = None <-> exists k, In k l /\ (k = ll_config_set_syscall_impl None \/ exists t, k = ll_config_set_instr_impl t None).
Proof.
  intros b. induction l as [|k l IH]; intro c; cbn [api_calls].
  - split; [discriminate|intros (k & [] & _)].
  - split.
    + destruct (api_call b c k) as [c1|] eqn:E.
      * intro F. apply IH in F. destruct F as (k' & I & F). exists k'. split; [right; exact I|exact F].
      * intros _. exists k. split; [left; reflexivity|]. destruct k; cbn [api_call] in E; try discriminate E; destruct v; try discriminate E; [right; eexists; reflexivity|left; reflexivity].
    + intros (k' & [<-|I] & F); [destruct F as [->|[t ->]]; reflexivity|]. destruct (api_call b c k) as [c1|]; [|reflexivity]. apply IH. exists k'. auto.
Qed.
Print Assumptions config_calls_defined.
(** Architecture and calling convention agree, unless no architecture was selected in a
    build without x86-64 (which rellume.h:66-67 calls undefined). *)
Theorem config_cconv_arch : forall b l c, api_calls b (ll_config_new b) l = Some c ->
  b_x86 b = true \/ (exists k a, In k l /\ selects b k = Some a) -> to_arch (g_cconv c) = g_arch c.
Proof.
  intros b l c E D.
  assert (G : forall l c c', api_calls b c l = Some c' -> to_arch (g_cconv c) = g_arch c \/ (exists k a, In k l /\ selects b k = Some a) -> to_arch (g_cconv c') = g_arch c').
  { clear. induction l as [|k l IH]; intros c c' E D; cbn [api_calls] in E.
    - injection E as <-. destruct D as [D|(k & a & [] & _)]. exact D.
    - destruct (api_call b c k) as [c1|] eqn:E1; [|discriminate E]. apply (IH c1 c' E).
      assert (S : to_arch (g_cconv c) = g_arch c \/ (exists a, selects b k = Some a) -> to_arch (g_cconv c1) = g_arch c1).
      { clear - E1. destruct k; cbn [api_call] in E1; try (destruct v; [|discriminate E1]); try (injection E1 as <-; intros [D|[? D]]; [exact D|discriminate D]).
        injection E1 as <-. intro D. pose proof (set_architecture_correct b c s) as X. destruct (set_architecture b c s) as [c' ok]. cbn [fst selects] in *.
        destruct (arch_name s) as [a|]; [destruct (is_built b a)|].
        - destruct X as (_ & X & Y). rewrite Y, X. reflexivity.
        - destruct X as [_ ->]. destruct D as [D|(a' & D)]; [exact D|discriminate D].
        - destruct X as [_ ->]. destruct D as [D|(a' & D)]; [exact D|discriminate D]. }
      destruct D as [D|(k' & a & [->|I] & F)]; [left; apply S; left; exact D|left; apply S; right; exists a; exact F|right; exists k', a; auto]. }
  apply (G l _ _ E). destruct D as [D|D]; [left|right; exact D]. unfold ll_config_new. rewrite D. reflexivity.
Qed.
Print Assumptions config_cconv_arch.
(** Every function set can be unset with a null pointer: not the syscall implementation,
    nor an overridden instruction. *)
Theorem config_unset_refuted : forall b c f t,
  api_calls b c [ll_config_set_syscall_impl (Some f); ll_config_set_syscall_impl None] = None /\
  api_calls b c [ll_config_set_instr_impl t (Some f); ll_config_set_instr_impl t None] = None /\
  exists c', api_calls b c [ll_config_set_tail_func (Some f); ll_config_set_call_func (Some f); ll_config_set_cpuinfo_func (Some f); ll_config_set_instr_marker (Some f);
                            ll_config_set_tail_func None; ll_config_set_call_func None; ll_config_set_cpuinfo_func None; ll_config_set_instr_marker None] = Some c' /\
    [g_tail c'; g_call c'; g_cpuinfo c'; g_marker c'] = [None; None; None; None].
Proof. intros. split; [reflexivity|]. split; [reflexivity|]. eexists. split; [cbv; reflexivity|reflexivity]. Qed.
Print Assumptions config_unset_refuted.
Example config_options_nv : let b := Built false true true in
  option_map (fun c => (g_arch c, g_cconv c, g_fast_math c, g_pcbase_addr c, g_pcbase c, map (g_overrides c) [3; 4]))
    (api_calls b (ll_config_new b) [ll_config_set_architecture "rv64"; ll_config_enable_fast_math true; ll_config_set_instr_impl 3 (Some 8); ll_config_set_pc_base 0x1000 (Some 5);
       ll_config_set_instr_impl 4 (Some 9); ll_config_enable_fast_math false; ll_config_set_architecture "aarch64"; ll_config_set_architecture "x86_64"; ll_config_set_instr_impl 3 (Some 7)])
  = Some (AArch64, CcA64, false, 0x1000, Some 5, [Some 7; Some 9]) /\
  option_map (fun c => (g_arch c, to_arch (g_cconv c))) (api_calls b (ll_config_new b) []) = Some (ArchInvalid, X86_64).
Proof. split; reflexivity. Qed.

(** ** C71: overridden instructions
    [calls_with c s l f p]: the code [l] calls [f] once, with the registers and the
    memory of [s] and the run-time address of [p] as PC, and registers, memory and PC
    are afterwards what [f] leaves. *)
Definition calls_with `{FpuOps} (c : cenv) (s : st) (l : list stm) (f p : Z) : Prop :=
  let u := c_ext c f (Cpu (Some (runtime_addr c p)) (s_reg s) (s_mem s)) in
  exists s', run c s l = Ok s' /\ s_reg s' = u_reg u /\ s_mem s' = u_mem u /\ s_ret s' = s_ret s /\
    s_pc s' = PcVal (match u_pc u with Some z => V (TInt 64) (z mod 2 ^ 64) | None => Poison (TInt 64) end).
Lemma ov_calls : forall `{FpuOps} c s f p, calls_with c s [SPcConst p; SCall f] f p.
Proof.
  intros F c s f p. unfold calls_with. cbv zeta. cbn [run run1 bind with_pc s_pc pc_value]. eexists. split; [reflexivity|].
  unfold to_cpu, of_cpu. cbn [s_reg s_mem s_ret s_pc].
  assert (R : addr_pc_base c (p + 0) = runtime_addr c p).
  { rewrite Z.add_0_r. unfold addr_pc_base, runtime_addr, trunc. destruct (c_pcbase c) as [b|]; [|reflexivity]. rewrite Zplus_mod_idemp_r. f_equal. lia. }
  rewrite R. auto.
Qed.
(** x86-64: the function sees the guest before the instruction, with the PC of the next
    instruction; one that leaves the PC alone continues there. *)
Theorem x86_override_correct : forall `{FpuOps} c cfg kc kcp kd i s f, exists l, lift_x86 c cfg kc kcp (Some f) kd i = (true, CPlain l) /\ calls_with c s l f (x_end i).
Proof. intros F c cfg kc kcp kd i s f. eexists. split; [reflexivity|]. apply ov_calls. Qed.
Print Assumptions x86_override_correct.
(** RV64 and AArch64: the PC is the instruction's own address. *)
Theorem rv64_override_partial : forall `{FpuOps} c cfg kc i s f, exists l, lift_rv64 c cfg kc (Some f) i = Some (true, l) /\ calls_with c s l f (r_start i).
Proof. intros F c cfg kc i s f. eexists. split; [reflexivity|]. apply ov_calls. Qed.
Print Assumptions rv64_override_partial.
Theorem a64_override_partial : forall `{FpuOps} c cfg i s f, exists l, lift_a64_ov cfg (Some f) i = Some (true, l) /\ calls_with c s l f (a_start i).
Proof. intros F c cfg i s f. eexists. split; [reflexivity|]. apply ov_calls. Qed.
Print Assumptions a64_override_partial.
(** A function that changes nothing replaces its instruction by a no-op: on RV64 and
    AArch64 the PC stays at the instruction, and a guest that gets there at the end of a
    block never goes on. *)
Theorem rv64_override_nop_refuted : forall `{FpuOps} c cfg kc i s f, (forall u, c_ext c f u = u) ->
  exists l s' z, lift_rv64 c cfg kc (Some f) i = Some (true, l) /\ run c s l = Ok s' /\ s_pc s' = PcVal (V (TInt 64) z) /\
    z = runtime_addr c (r_start i) /\ z <> runtime_addr c (r_start i + 2) /\ z <> runtime_addr c (r_start i + 4).
Proof.
  intros F c cfg kc i s f ID. destruct (rv64_override_partial c cfg kc i s f) as (l & E & s' & R & _ & _ & _ & P). rewrite ID in P. cbn [u_pc] in P.
  exists l, s', (runtime_addr c (r_start i)). split; [exact E|]. split; [exact R|]. split; [rewrite P; do 2 f_equal; unfold runtime_addr; destruct (c_pcbase c); apply Zmod_mod|].
  split; [reflexivity|]. unfold runtime_addr. change (2 ^ 64) with 18446744073709551616. destruct (c_pcbase c) as [b|]; split; intro Q; Z.div_mod_to_equations; lia.
Qed.
Print Assumptions rv64_override_nop_refuted.
Theorem a64_override_nop_refuted : forall `{FpuOps} c cfg i s f, (forall u, c_ext c f u = u) ->
  exists l s' z, lift_a64_ov cfg (Some f) i = Some (true, l) /\ run c s l = Ok s' /\ s_pc s' = PcVal (V (TInt 64) z) /\
    z = runtime_addr c (a_start i) /\ z <> runtime_addr c (a_start i + 4).
Proof.
  intros F c cfg i s f ID. destruct (a64_override_partial c cfg i s f) as (l & E & s' & R & _ & _ & _ & P). rewrite ID in P. cbn [u_pc] in P.
  exists l, s', (runtime_addr c (a_start i)). split; [exact E|]. split; [exact R|]. split; [rewrite P; do 2 f_equal; unfold runtime_addr; destruct (c_pcbase c); apply Zmod_mod|].
  split; [reflexivity|]. unfold runtime_addr. change (2 ^ 64) with 18446744073709551616. destruct (c_pcbase c) as [b|]; intro Q; Z.div_mod_to_equations; lia.
Qed.
Print Assumptions a64_override_nop_refuted.
(** The guest goes on at the PC the function leaves: not if another instruction follows
    in the block. Two functions that leave the same registers and memory, but different
    PCs, have the same effect there. *)
Lemma ov_mid : forall `{FpuOps} c s f f' p a l,
  (forall u, u_reg (c_ext c f u) = u_reg (c_ext c f' u) /\ u_mem (c_ext c f u) = u_mem (c_ext c f' u)) ->
  run c s ([SPcConst p; SCall f] ++ SPcConst a :: l) = run c s ([SPcConst p; SCall f'] ++ SPcConst a :: l).
Proof.
  intros F c s f f' p a l E. cbn [app run run1 bind with_pc s_pc pc_value]. unfold of_cpu, with_pc. cbn [s_reg s_mem s_var s_ret].
  match goal with |- context [c_ext c f ?u] => destruct (E u) as [-> ->] end. reflexivity.
Qed.
Theorem override_pc_refuted : forall `{FpuOps} c s f f',
  (forall u, u_reg (c_ext c f u) = u_reg (c_ext c f' u) /\ u_mem (c_ext c f u) = u_mem (c_ext c f' u)) ->
  (forall cfg kc kcp kd i kc2 kcp2 kd2 j b l2, lift_x86 c cfg kc2 kcp2 None kd2 j = (b, CPlain l2) ->
     exists l l', lift_x86 c cfg kc kcp (Some f) kd i = (true, CPlain l) /\ lift_x86 c cfg kc kcp (Some f') kd i = (true, CPlain l') /\ run c s (l ++ l2) = run c s (l' ++ l2)) /\
  (forall cfg kc i kc2 j b l2, lift_rv64 c cfg kc2 None j = Some (b, l2) ->
     exists l l', lift_rv64 c cfg kc (Some f) i = Some (true, l) /\ lift_rv64 c cfg kc (Some f') i = Some (true, l') /\ run c s (l ++ l2) = run c s (l' ++ l2)) /\
  (forall cfg i j b l2, lift_a64_ov cfg None j = Some (b, l2) ->
     exists l l', lift_a64_ov cfg (Some f) i = Some (true, l) /\ lift_a64_ov cfg (Some f') i = Some (true, l') /\ run c s (l ++ l2) = run c s (l' ++ l2)).
Proof.
  intros F c s f f' E. split; [|split].
  - intros cfg kc kcp kd i kc2 kcp2 kd2 j b l2 L.
    assert (Q : exists l3, l2 = SPcConst (x_end j) :: l3).
    { unfold lift_x86 in L. destruct (lift_gp _ _ _ _ _ _) as [l|]; [injection L as <- <-; eexists; reflexivity|].
      destruct (lift_str _) as [k|]; [|injection L as <- <-; eexists; reflexivity]. destruct k; try discriminate L. injection L as <- <-. eexists; reflexivity. }
    destruct Q as [l3 ->]. do 2 eexists. split; [reflexivity|]. split; [reflexivity|]. apply (ov_mid c s f f' _ _ l3 E).
  - intros cfg kc i kc2 j b l2 L.
    assert (Q : exists l3, l2 = SPcConst (r_start j) :: l3) by (unfold lift_rv64 in L; destruct (lift_mnem _ _ _ _) as [[b' l']|]; [injection L as <- <-; eexists; reflexivity|discriminate L]).
    destruct Q as [l3 ->]. do 2 eexists. split; [reflexivity|]. split; [reflexivity|]. apply (ov_mid c s f f' _ _ l3 E).
  - intros cfg i j b l2 L.
    assert (Q : exists l3, l2 = SPcConst (a_start j) :: l3).
    { unfold lift_a64_ov, lift_a64 in L. destruct (lift_op _ _) as [[[[] l']|]|]; first [injection L as <- <-; eexists; reflexivity|discriminate L]. }
    destruct Q as [l3 ->]. do 2 eexists. split; [reflexivity|]. split; [reflexivity|]. apply (ov_mid c s f f' _ _ l3 E).
Qed.
Print Assumptions override_pc_refuted.
(** Functions 5 and 6 set x1 to 42; 6 leaves the PC at 0x9000. Alone, or followed by
    BSETI x3, x1, 2. *)
Definition c_ov : cenv := CEnv RV64 None 0 None 0 (fun f u => Cpu (if f =? 5 then u_pc u else Some 0x9000) (fun r => match r with GP 1 => Some 42 | _ => u_reg u r end) (u_mem u)).
Example override_nv : let s := st_of (g_ex 0x1000 (fun n => n)) in let ov f := [SPcConst 0x1000; SCall f] in
  (forall u, u_reg (c_ext c_ov 5 u) = u_reg (c_ext c_ov 6 u) /\ u_mem (c_ext c_ov 5 u) = u_mem (c_ext c_ov 6 u)) /\
  lift_rv64 c_ov cfg_ex kc_ex (Some 6) (i_ex R_BSETI 0) = Some (true, ov 6) /\
  (exists s', @run fpu0 c_ov s (ov 6) = Ok s' /\ s_pc s' = PcVal (V (TInt 64) 0x9000) /\ s_reg s' (GP 1) = Some 42) /\
  (exists s', @run fpu0 c_ov s (ov 5) = Ok s' /\ s_pc s' = PcVal (V (TInt 64) 0x1000)) /\
  match lift_rv64 c_ov cfg_ex kc_ex None (RvInst R_BSETI 3 1 2 4 2 7 0x1004 4) with
  | Some (_, l2) => match @run fpu0 c_ov s (ov 6 ++ l2) with Ok s' => s_reg s' (GP 3) = Some 46 /\ pc_value c_ov (s_pc s') 0 = Ok (V (TInt 64) 0x1008) | _ => False end
  | None => False
  end.
Proof.
  cbv zeta. split; [intro u; split; reflexivity|]. split; [reflexivity|]. split; [eexists; split; [reflexivity|split; reflexivity]|]. split; [eexists; split; reflexivity|].
  split; reflexivity.
Qed.

(** ** C72: calls of functions given by the user
    LLVM: a call is well-typed if every argument exists and has the type of its
    parameter; a forced tail call (musttail) also needs the caller's type and calling
    convention, here void(ptr addrspace(sp)) and C. *)
Definition arg_typed (sp : Z) (x : argval) (t : option Z) : Prop := x = ArgSptr /\ t = Some sp.
Definition call_typed (sp : Z) (f : fnty) : Prop := exists l, call_args f = Some l /\ Forall2 (arg_typed sp) l (ft_params f).
Definition tail_typed (sp : Z) (f : fnty) : Prop := call_typed sp f /\ ft_cc f = 0 /\ ft_void f = true /\ ft_vararg f = false.

Lemma call_typed_iff : forall sp f, call_typed sp f <-> ft_params f = [Some sp].
Proof.
  intros sp f. unfold call_typed, call_args. split.
  - intros (l & E & T). destruct (ft_params f) as [|t r]; [discriminate E|]. injection E as <-. inversion T as [|? ? ? ? [_ A] T2]; subst. f_equal.
    destruct r as [|t' r]; [reflexivity|]. inversion T2 as [|? ? ? ? [A2 _] _]. discriminate A2.
  - intros ->. eexists. split; [reflexivity|]. constructor; [split; reflexivity|constructor].
Qed.
(** A function that the calling convention of the architecture admits, with the
    configured address space, is called correctly and everything is reloaded
    afterwards. No other parameter list is called correctly ([call_typed_iff]). Missing:
    functions of other types should be rejected (refuted below). *)
Theorem ext_call_partial : forall b a f sp, is_built b a = true -> ft_params f = [Some sp] -> ft_cc f = 0 -> ft_void f = true -> ft_vararg f = false ->
  call_typed sp f /\ tail_typed sp f /\ reloaded b f a = desc a.
Proof.
  intros b a f sp B P C V A. assert (T : call_typed sp f) by (apply call_typed_iff; exact P). split; [exact T|]. split; [repeat split; assumption|].
  unfold reloaded. destruct (from_function_correct b f a B) as [[_ Q] _]. rewrite Q; [reflexivity|]. split; [exact C|]. split; [exists sp; exact P|]. auto.
Qed.
Print Assumptions ext_call_partial.
(** A function for another address space passes the check, and the call is ill-typed. *)
Theorem ext_call_addrspace_refuted : forall b a f sp sp', is_built b a = true -> sp <> sp' -> ft_params f = [Some sp'] -> ft_cc f = 0 -> ft_void f = true -> ft_vararg f = false ->
  to_arch (from_function b f a) = a /\ ~ call_typed sp f.
Proof.
  intros b a f sp sp' B N P C V A. split.
  - apply (from_function_correct b f a B). split; [exact C|]. split; [exists sp'; exact P|]. auto.
  - intro T. apply call_typed_iff in T. rewrite P in T. injection T as T. congruence.
Qed.
Print Assumptions ext_call_addrspace_refuted.
(** A function that fails the check is called nevertheless: without parameters a write out
    of bounds, with more than one an argument that does not exist, and otherwise a call
    after which no register but the PC is reloaded. *)
Theorem ext_call_unchecked_refuted : forall b a f, is_built b a = true ->
  (ft_params f = [] -> call_args f = None) /\
  (forall t t' r, ft_params f = t :: t' :: r -> exists l, call_args f = Some (ArgSptr :: ArgNull :: l)) /\
  (ft_cc f <> 0 \/ ft_void f = false \/ ft_vararg f = true -> reloaded b f a = [] /\ desc a <> [] /\ forall sp, ft_params f = [Some sp] -> call_typed sp f).
Proof.
  intros b a f B. split; [intro E; unfold call_args; rewrite E; reflexivity|]. split; [intros t t' r E; unfold call_args; rewrite E; eexists; reflexivity|].
  intro D. split; [|split; [destruct a; [discriminate B|discriminate..]|intros sp; apply call_typed_iff]].
  destruct (from_function_correct b f a B) as [[Q1 _] Q2]. unfold reloaded. rewrite Q2; [reflexivity|].
  intro E. destruct (Q1 E) as (C & _ & V & A). destruct D as [D|[D|D]]; congruence.
Qed.
Print Assumptions ext_call_unchecked_refuted.
Example ext_call_nv : let b := Built true true true in
  List.length (reloaded b (FnTy 0 [Some 3] true false) RV64) = List.length desc_rv64 /\ call_typed 3 (FnTy 0 [Some 3] true false) /\
  reloaded b (FnTy 8 [Some 3] true false) RV64 = [] /\ call_args (FnTy 0 [Some 3; None] true false) = Some [ArgSptr; ArgNull].
Proof. cbv zeta. split; [reflexivity|]. split; [apply call_typed_iff; reflexivity|]. split; reflexivity. Qed.
