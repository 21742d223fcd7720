(** Properties C11, C12, C23, C24, C40, C42 and C43. *)

From Coq Require Import ZArith Lia ZifyBool List Bool String.
From Verif Require Import Bits IR Facet Dsl Layout Rv64 Rv64Spec Rv64Sim Rv64Int Rv64Step Rv64Ex.
Import ListNotations.
Open Scope Z_scope.
Ltac Zify.zify_post_hook ::= Z.div_mod_to_equations.

(** ** C11: PC value and branch decision *)
(** What the lifters store as PC: defined values of the right type. *)
Definition pc_defined (p : pcreg) : Prop :=
  match p with
  | PcVal v => exists z, v = V (TInt 64) z
  | PcConst _ => True
  | PcCond k _ _ => exists b, (b = 0 \/ b = 1) /\ k = V (TInt 1) b
  | PcCheck v _ => exists z, inr 64 z /\ v = V (TInt 64) z
  end.
(** The address at which code at [a] finds itself at run time. *)
Definition runtime_addr (c : cenv) (a : Z) : Z :=
  match c_pcbase c with None => a mod 2^64 | Some b => (b + a - c_pcbase_addr c) mod 2^64 end.
Lemma addr_pc_base_spec : forall c a, addr_pc_base c a = runtime_addr c a.
Proof.
  intros c a. unfold addr_pc_base, runtime_addr, trunc. destruct (c_pcbase c) as [b|]; [|reflexivity].
  rewrite Zplus_mod_idemp_r. f_equal. lia.
Qed.
(** The branch decision selects an address; a selected address 0 means that the
    function is left. If the code at a non-zero [a] is selected, the PC value is
    [a]'s run-time address. The PC value is always defined. *)
Theorem pc_branch_agrees : forall c p, pc_defined p -> exists b a1 a2 v,
  pc_branch c p = Ok (V (TInt 1) b, a1, a2) /\ (b = 0 \/ b = 1) /\ pc_value c p 0 = Ok (V (TInt 64) v) /\
  let a := if b =? 1 then a1 else a2 in a <> 0 -> v = runtime_addr c a.
Proof.
  intros c p D. destruct p as [v|a|k a1 a2|v a]; cbn [pc_defined] in D.
  - destruct D as (z & ->). exists 1, 0, 0, z. cbv zeta; repeat split; auto; intros Q. exfalso. apply Q. reflexivity.
  - exists 1, a, 0, (addr_pc_base c a). cbn [pc_branch pc_value]. rewrite Z.add_0_r. cbv zeta; repeat split; auto; intros _. apply addr_pc_base_spec.
  - destruct D as (b & B & ->). exists b, a1, a2, (addr_pc_base c (if b =? 1 then a1 else a2)). cbn [pc_branch pc_value]. rewrite !Z.add_0_r.
    split; [reflexivity|]. split; [assumption|]. split; [|cbv zeta; intros _; apply addr_pc_base_spec].
    unfold sel_sem. destruct B as [->| ->]; reflexivity.
  - destruct D as (z & Z0 & ->). cbn [pc_branch pc_value]. exists (if z =? addr_pc_base c a then 1 else 0), a, 0, z.

    unfold cmp_sem. cbn. destruct (Z.eqb_spec z (addr_pc_base c a)) as [E|E].
    + cbv zeta; repeat split; auto; intros _. rewrite E. apply addr_pc_base_spec.
    + cbv zeta; repeat split; auto; intros Q. exfalso. apply Q. reflexivity.
Qed.
Print Assumptions pc_branch_agrees.
Example pc_branch_nv : pc_defined (PcCond (V (TInt 1) 1) 0x1000 0x1004) /\ pc_defined (PcCheck (V (TInt 64) 0x555004) 0x1004) /\
  pc_branch c_pic (PcCheck (V (TInt 64) 0x555004) 0x1004) = Ok (V (TInt 1) 1, 0x1004, 0).
Proof. split; [exists 1; auto|]. split; [exists 0x555004; split; [split; lia|reflexivity]|vm_compute; reflexivity]. Qed.
(** Relative PC reads (AddrIPRel). *)
Theorem pc_value_offset : forall c p v off, pc_defined p -> pc_value c p 0 = Ok (V (TInt 64) v) -> inr 64 v ->
  pc_value c p off = Ok (V (TInt 64) ((v + off) mod 2^64)).
Proof.
  assert (AB : forall c a off, addr_pc_base c (a + off) = (addr_pc_base c a + off) mod 2^64).
  { intros c a off. rewrite !addr_pc_base_spec. unfold runtime_addr. destruct (c_pcbase c) as [b|];
    rewrite Zplus_mod_idemp_l; f_equal; lia. }
  intros c p v off D E VI. destruct p as [w|a|k a1 a2|w a]; cbn [pc_defined pc_value] in *.
  - injection E as ->. destruct (Z.eqb_spec off 0) as [->|N].
    + rewrite Z.add_0_r, Z.mod_small by exact VI. reflexivity.
    + unfold bin_sem. cbn. do 2 f_equal. unfold trunc. apply Zplus_mod_idemp_r.
  - injection E as <-. rewrite Z.add_0_r. rewrite AB. reflexivity.
  - destruct D as (b & [->| ->] & ->); unfold sel_sem in *; cbn in E |- *; injection E as <-; rewrite Z.add_0_r, AB; reflexivity.
  - injection E as ->. destruct (Z.eqb_spec off 0) as [->|N].
    + rewrite Z.add_0_r, Z.mod_small by exact VI. reflexivity.
    + unfold bin_sem. cbn. do 2 f_equal. unfold trunc. apply Zplus_mod_idemp_r.
Qed.
Print Assumptions pc_value_offset.

(** ** C12: position independence (RV64) *)
(** The same code lifted once, run at base [b]: every instruction that the lifter
    supports leaves the PC the ISA prescribes for code loaded there. *)
Theorem rv64_pic_correct : forall `{FpuOps} c cfg kc i s g g' b, c_pcbase c = Some b -> rv_ctx c kc i s g ->
  g_pc g = (b + r_start i - c_pcbase_addr c) mod 2^64 /\
  (isa_step i g = Some g' -> step_pre cfg i g -> exists l s', lift_rv64 c cfg kc None i = Some (true, l) /\
    run c s l = Ok s' /\ pc_value c (s_pc s') 0 = Ok (V (TInt 64) (g_pc g'))).
Proof.
  intros ? c cfg kc i s g g' b B X. split.
  - rewrite (x_pc _ _ _ _ _ X), addr_pc_base_spec. unfold runtime_addr. rewrite B. reflexivity.
  - intros E P. assert (Y : exists p, lifts_to c cfg kc i s g' p) by (eapply step_ctx; eassumption). destruct Y as (p & l & s' & L & RN & _ & PCA & _). exists l, s'. auto.
Qed.
Print Assumptions rv64_pic_correct.
(** Refuted for instructions the lifter does not support: the PC left behind is the
    lift-time address, not the run-time address. *)
Theorem rv64_pic_unsupported_refuted : forall `{FpuOps} c cfg kc i s b, c_pcbase c = Some b -> r_mn i = R_OTHER -> inr 64 (r_start i) ->
  exists l s', lift_rv64 c cfg kc None i = Some (false, l) /\ run c s l = Ok s' /\
    pc_value c (s_pc s') 0 = Ok (V (TInt 64) (r_start i)) /\
    (b mod 2^64 <> c_pcbase_addr c mod 2^64 -> r_start i <> runtime_addr c (r_start i)).
Proof.
  intros ? c cfg kc i s b B M SI. unfold lift_rv64, lift_mnem, unhandled. rewrite M. eexists _, _. split; [reflexivity|].
  split; [cbn; reflexivity|]. split; [cbn; rewrite trunc_small by assumption; reflexivity|]. intros N Q. apply N.
  unfold runtime_addr in Q. rewrite B in Q. unfold inr in SI. clear - SI Q. lia.
Qed.
Print Assumptions rv64_pic_unsupported_refuted.

(** ** C23: the CPU struct *)
Lemma layout_spec : forall l off r, layout off l = Some r ->
  (forall e o, In (e, o) r -> off <= o /\ o mod le_size e = 0 /\ 0 < le_size e /\ o + le_size e <= off + total l) /\ map fst r = l.
Proof.
  assert (TP : forall l, (forall e, In e l -> 0 < le_size e) -> 0 <= total l).
  { induction l as [|e l IH]; intros P; cbn; [lia|]. pose proof (P e (or_introl eq_refl)). specialize (IH (fun x H => P x (or_intror H))). unfold total in IH. lia. }
  induction l as [|e l IH]; intros off r E; cbn in E; [injection E as <-; split; [intros ? ? []|reflexivity]|].
  destruct (Z.leb_spec (le_size e) 0); [discriminate|]. destruct (Z.eqb_spec (off mod le_size e) 0) as [M|]; [|discriminate].
  cbn in E. destruct (layout (off + le_size e) l) as [r1|] eqn:L; [|discriminate]. injection E as <-. destruct (IH _ _ L) as [I1 I2].
  split; [|cbn; rewrite I2; reflexivity].
  assert (P : forall x, In x l -> 0 < le_size x).
  { intros x Q. rewrite <- I2 in Q. apply in_map_iff in Q. destruct Q as ((x' & o) & <- & Q). apply (I1 _ _ Q). }
  specialize (TP l P). intros x o [Q|Q].
  - injection Q as <- <-. cbn [total fold_right]. unfold total in TP. repeat split; lia.
  - destruct (I1 x o Q) as (A1 & A2 & A3 & A4). cbn [total fold_right]. unfold total in A4. repeat split; try assumption; lia.
Qed.
(** Any description the generator accepts: entries are naturally aligned, inside
    the struct and pairwise disjoint, and the first one is at offset 0. *)
Theorem layout_sound : forall l r, layout 0 l = Some r ->
  map fst r = l /\
  (forall i e o, nth_error r i = Some (e, o) -> 0 < le_size e /\ (le_size e | o) /\ 0 <= o /\ o + le_size e <= total l /\ (i = O -> o = 0)) /\
  (forall i j e o e' o', nth_error r i = Some (e, o) -> nth_error r j = Some (e', o') -> (i < j)%nat -> o + le_size e <= o').
Proof.
  intros l r E. destruct (layout_spec _ _ _ E) as [S1 S2]. split; [assumption|]. split.
  - intros i e o N. destruct (S1 e o (nth_error_In _ _ N)) as (A1 & A2 & A3 & A4). repeat split; try lia.
    + apply Z.mod_divide; lia.
    + intros ->. destruct l as [|e0 l]; cbn in E; [injection E as <-; discriminate|].
      destruct (le_size e0 <=? 0); [discriminate|]. destruct (layout (le_size e0) l); [|discriminate].
      injection E as <-. cbn in N. injection N as <- <-. reflexivity.
  - clear S1 S2. assert (G : forall l off r, layout off l = Some r ->
      forall i j e o e' o', nth_error r i = Some (e, o) -> nth_error r j = Some (e', o') -> (i < j)%nat -> o + le_size e <= o').
    { clear. induction l as [|x l IH]; intros off r E i j e o e' o' NI NJ L; cbn in E; [injection E as <-; destruct i; discriminate|].
      destruct (le_size x <=? 0); [discriminate|]. destruct (negb _); [discriminate|]. destruct (layout _ l) as [r1|] eqn:L1; [|discriminate].
      injection E as <-. destruct j as [|j]; [lia|]. cbn in NJ. destruct i as [|i]; cbn in NI.
      - injection NI as <- <-. destruct (layout_spec _ _ _ L1) as [S1 _]. apply (S1 e' o' (nth_error_In _ _ NJ)).
      - eapply IH; try eassumption. lia. }
    eapply G. exact E.
Qed.
Print Assumptions layout_sound.
(** Size in bytes of the memory access of an access type (i1 is accessed as a byte). *)
Definition access_bytes (f : facet) : Z := (facet_size f + 7) / 8.
(** Every register of the architecture has a slot of exactly the size of the type
    with which it is accessed, the register file uses the same type, distinct
    registers have distinct bits in the 72-bit register sets, the PC comes first, and the
    advertised dereferenceable size is inside the struct. *)
Definition arch_regs (a : arch) : list areg :=
  match a with
  | X86_64 => map GP (map Z.of_nat (seq 0 16)) ++ map FLAG (map Z.of_nat (seq 0 7)) ++ map VEC (map Z.of_nat (seq 0 16))
  | RV64 => map GP (map Z.of_nat (seq 0 32)) ++ map VEC (map Z.of_nat (seq 0 32))
  | AArch64 => map GP (map Z.of_nat (seq 0 32)) ++ map FLAG [0; 1; 3; 4] ++ map VEC (map Z.of_nat (seq 0 32))
  | ArchInvalid => []
  end.
Definition desc_ok (a : arch) : bool :=
  match layout 0 (desc a) with
  | None => false
  | Some r =>
    forallb (fun '(e, o) => match le_reg e with
      | None => true
      | Some (reg, f) => (le_size e =? access_bytes f) && facet_real f &&
          match reg with None => true | Some x => facet_eqb f (native_facet a x) && (1 <=? bit_idx x) && (bit_idx x <? 72) end
      end) r &&
    forallb (fun x => existsb (fun '(e, _) => match le_reg e with Some (Some y, _) => areg_eqb x y | _ => false end) r) (arch_regs a) &&
    match r with (e, 0) :: _ => (le_size e =? 8) && match le_reg e with Some (None, I64) => true | _ => false end | _ => false end &&
    (0x190 <=? total (desc a))
  end.
Fixpoint nodupb (l : list Z) : bool := match l with [] => true | x :: l' => negb (existsb (Z.eqb x) l') && nodupb l' end.
Definition slots (a : arch) : list (areg * facet) :=
  flat_map (fun e => match le_reg e with Some (Some x, f) => [(x, f)] | _ => [] end) (desc a).
Lemma nodupb_ok : forall l, nodupb l = true -> NoDup l.
Proof.
  induction l as [|x l IH]; intros E; [constructor|]. cbn in E. apply andb_prop in E. destruct E as [E1 E2]. constructor; [|auto].
  intros Q. apply negb_true_iff in E1. assert (X : existsb (Z.eqb x) l = true) by (apply existsb_exists; exists x; split; [assumption|lia]). congruence.
Qed.
Theorem cpu_struct_layout : forall a, a <> ArchInvalid -> exists r, layout 0 (desc a) = Some r /\ 0x190 <= total (desc a) /\
  (exists nm r', r = (LEnt nm 8 (Some (None, I64)), 0) :: r') /\
  (forall e o reg f, In (e, o) r -> le_reg e = Some (reg, f) -> le_size e = access_bytes f /\
     forall x, reg = Some x -> f = native_facet a x /\ 1 <= bit_idx x < 72) /\
  (forall x, In x (arch_regs a) -> exists e o f, In (e, o) r /\ le_reg e = Some (Some x, f)) /\
  NoDup (map bit_idx (map fst (slots a))).
Proof.
  intros a NA. assert (OK : desc_ok a = true) by (destruct a; [contradiction|vm_compute; reflexivity..]).
  assert (ND : NoDup (map bit_idx (map fst (slots a)))) by (apply nodupb_ok; destruct a; [contradiction|vm_compute; reflexivity..]).
  unfold desc_ok in OK. destruct (layout 0 (desc a)) as [r|]; [|discriminate]. exists r. split; [reflexivity|].
  apply andb_prop in OK. destruct OK as [OK O4]. apply andb_prop in OK. destruct OK as [OK O3]. apply andb_prop in OK. destruct OK as [O1 O2].
  split; [lia|]. split.
  { destruct r as [|[e o] r']; [discriminate|]. destruct o; try discriminate. apply andb_prop in O3. destruct O3 as [O3 O5].
    destruct e as [nm sz rg]. cbn in O3, O5. destruct rg as [[[x|] f]|]; try discriminate. destruct f; try discriminate.
    apply Z.eqb_eq in O3. subst sz. exists nm, r'. reflexivity. }
  split.
  { intros e o reg f I0 RE. rewrite forallb_forall in O1. specialize (O1 (e, o) I0). cbn in O1. rewrite RE in O1.
    apply andb_prop in O1. destruct O1 as [O1 O5]. apply andb_prop in O1. destruct O1 as [O1 _]. split; [lia|].
    intros x ->. apply andb_prop in O5. destruct O5 as [O5 O6]. apply andb_prop in O5. destruct O5 as [O5 O7].
    unfold facet_eqb in O5. destruct (facet_eq_dec f (native_facet a x)); [|discriminate]. split; [assumption|lia]. }
  split; [|assumption].
  intros x I0. rewrite forallb_forall in O2. specialize (O2 x I0). apply existsb_exists in O2. destruct O2 as ((e & o) & I1 & Q).
  destruct (le_reg e) as [[[y|] f]|] eqn:RE; try discriminate. exists e, o, f. split; [assumption|].
  rewrite RE. destruct x, y; cbn in Q; try discriminate; apply Z.eqb_eq in Q; subst; reflexivity.
Qed.
Print Assumptions cpu_struct_layout.
Example cpu_struct_nv : total desc_x86 = 416 /\ total desc_rv64 = 520 /\ total desc_a64 = 800 /\ List.length (slots AArch64) = 68%nat.
Proof. vm_compute. auto. Qed.

(** ** C24: access types *)
Definition is_pseudo (f : facet) : bool :=
  match f with FI | VI8 | VI16 | VI32 | VI64 | VF32 | VF64 | F_MAX => true | _ => false end.
(** Bits of a value of an LLVM type (LLVM's DataLayout for 64-bit pointers). *)
Fixpoint llvm_bits (t : ty) : Z :=
  match t with TInt w => w | TF32 => 32 | TF64 => 64 | TPtr => 64 | TVec n e => n * llvm_bits e end.
Theorem facet_size_type : forall f, is_pseudo f = false -> 0 < facet_size f /\ exists t, facet_type_opt f = Some t /\ llvm_bits t = facet_size f.
Proof. intros [] P; cbn in P; try discriminate; (split; [reflexivity|]); eexists; (split; [reflexivity|vm_compute; reflexivity]). Qed.
Print Assumptions facet_size_type.
Theorem facet_roundtrip : forall f t, facet_type_opt f = Some t -> f <> PTR -> f <> I8H -> facet_FromType t = f.
Proof. intros [] t E; intros P Q; cbn in E; try discriminate; try contradiction; injection E as <-; vm_compute; reflexivity. Qed.
Print Assumptions facet_roundtrip.
(** A type maps to an access type of that very type whenever it maps at all. *)
Theorem facet_of_type : forall t, facet_FromType t <> F_MAX -> facet_type_opt (facet_FromType t) = Some t.
Proof.
  assert (VN : forall n s f, In (f, n, s) vector_facets -> facet_type_opt f = match facet_type_opt s with Some t => Some (TVec n t) | None => None end).
  { intros n s f Q. cbn in Q. repeat (destruct Q as [Q|Q]; [injection Q as <- <- <-; reflexivity|]). contradiction. }
  induction t as [w| | | |n e IH]; intros N; cbn in *; try reflexivity; try contradiction.
  - unfold facet_In in *. repeat match goal with H : context [w =? ?k] |- _ => destruct (Z.eqb_spec w k) as [EQ|]; [rewrite EQ; reflexivity|] end. contradiction.
  - unfold facet_Vnt in *. destruct (find _ vector_facets) as [[[f m] s]|] eqn:F; [|contradiction].
    apply find_some in F. destruct F as [F1 F2]. apply andb_prop in F2. destruct F2 as [F2 F3].
    unfold facet_eqb in F3. destruct (facet_eq_dec s (facet_FromType e)) as [->|]; [|discriminate].
    apply Z.eqb_eq in F2. subst m. rewrite (VN _ _ _ F1). rewrite IH; [reflexivity|].
    intros Q. rewrite Q in F1. cbn in F1. repeat (destruct F1 as [F1|F1]; [discriminate|]). contradiction.
Qed.
Print Assumptions facet_of_type.
(** Pseudo access types resolve to the access type that fills the width, for
    every width for which they resolve at all. *)
Theorem facet_resolve : forall f bits, facet_Resolve f bits <> F_MAX -> is_pseudo f = true ->
  let g := facet_Resolve f bits in is_pseudo g = false /\
  match f with FI => facet_size g = bits | _ => facet_size g <= bits < facet_size g + match f with VI8 => 8 | VI16 => 16 | VI32 | VF32 => 32 | _ => 64 end end.
Proof.
  assert (VN : forall n s, facet_Vnt n s <> F_MAX -> is_pseudo (facet_Vnt n s) = false /\ facet_size (facet_Vnt n s) = n * facet_size s).
  { intros n s N. unfold facet_Vnt in *. destruct (find _ vector_facets) as [[[f m] s']|] eqn:F; [|contradiction].
    apply find_some in F. destruct F as [F1 F2]. apply andb_prop in F2. destruct F2 as [F2 F3].
    unfold facet_eqb in F3. destruct (facet_eq_dec s' s) as [->|]; [|discriminate]. apply Z.eqb_eq in F2. subst m.
    cbn in F1. repeat (destruct F1 as [F1|F1]; [injection F1 as <- <- <-; split; reflexivity|]). contradiction. }
  intros f bits N P. destruct f; cbn in P; try discriminate; cbn [facet_Resolve] in *; cbv zeta.
  1: { unfold facet_In in *. repeat match goal with H : context [bits =? ?k] |- _ => destruct (Z.eqb_spec bits k) as [EQ|]; [rewrite EQ; split; reflexivity|] end. contradiction. }
  7: { contradiction. }
  all: destruct (VN _ _ N) as [V1 V2]; split; [assumption|]; rewrite V2; cbn [facet_size]; lia.
Qed.
Print Assumptions facet_resolve.
Example facet_resolve_nv : facet_Resolve VI16 128 = V8I16 /\ facet_Resolve FI 32 = I32 /\ facet_Resolve VF64 100 = V1F64.
Proof. repeat split. Qed.

(** ** C40: architecture selection *)
Definition arch_name (s : string) : option arch :=
  if String.eqb s "x86-64" then Some X86_64 else if String.eqb s "x86_64" then Some X86_64
  else if String.eqb s "rv64" then Some RV64 else if String.eqb s "aarch64" then Some AArch64 else None.
Definition is_built (b : built) (a : arch) : bool :=
  match a with X86_64 => b_x86 b | RV64 => b_rv64 b | AArch64 => b_a64 b | ArchInvalid => false end.
Theorem set_architecture_correct : forall b c s, let (c', ok) := set_architecture b c s in
  match arch_name s with
  | Some a => if is_built b a then ok = true /\ c' = set_arch c a (g_cconv c') /\ to_arch (g_cconv c') = a else ok = false /\ c' = c
  | None => ok = false /\ c' = c
  end.
Proof.
  intros b c s. unfold set_architecture, arch_name.
  destruct (String.eqb s "x86-64"); cbn [orb]; [destruct b as [[] ? ?]; cbn; auto|].
  destruct (String.eqb s "x86_64"); [destruct b as [[] ? ?]; cbn; auto|].
  destruct (String.eqb s "rv64"); [destruct b as [? [] ?]; cbn; auto|].
  destruct (String.eqb s "aarch64"); [destruct b as [? ? []]; cbn; auto|]. auto.
Qed.
Print Assumptions set_architecture_correct.
(** Any sequence of selections leaves architecture and calling convention consistent. *)
Theorem selections_consistent : forall b l c, to_arch (g_cconv c) = g_arch c ->
  let c' := fold_left (fun c s => fst (set_architecture b c s)) l c in to_arch (g_cconv c') = g_arch c'.
Proof.
  intros b l. induction l as [|s l IH]; intros c E; [assumption|]. cbn [fold_left]. apply IH.
  pose proof (set_architecture_correct b c s) as X. destruct (set_architecture b c s) as [c' ok]. cbn [fst].
  destruct (arch_name s) as [a|]; [destruct (is_built b a)|].
  - destruct X as (_ & X & Y). rewrite Y, X. reflexivity.
  - destruct X as [_ ->]. assumption.
  - destruct X as [_ ->]. assumption.
Qed.
Print Assumptions selections_consistent.
(** An external function is accepted exactly if it has the C calling convention and
    type void(ptr), for any compiled-in architecture; the convention is then the
    architecture's. *)
Theorem from_function_correct : forall b f a, is_built b a = true ->
  (to_arch (from_function b f a) = a <-> (ft_cc f = 0 /\ (exists sp, ft_params f = [Some sp]) /\ ft_void f = true /\ ft_vararg f = false)) /\
  (to_arch (from_function b f a) <> a -> from_function b f a = CcInvalid).
Proof.
  assert (IV : to_arch CcInvalid = ArchInvalid) by reflexivity.
  intros b f a B. destruct a; [discriminate|..]; cbn in B; unfold from_function; rewrite B;
  (destruct (Z.eqb_spec (ft_cc f) 0) as [E|E]; cbn [negb];
   [destruct (ft_params f) as [|[sp|] [|]]; [|destruct (ft_void f), (ft_vararg f)|..]; cbn|cbn]);
  (split; [split; [intros Q; try discriminate Q; eauto 6|intros (Q1 & (sp' & Q2) & Q3 & Q4); try discriminate; try contradiction; reflexivity]|
           intros Q; try contradiction; try reflexivity; exfalso; apply Q; reflexivity]).
Qed.
Print Assumptions from_function_correct.
Example set_architecture_nv : forall c, snd (set_architecture (Built true true false) c "rv64") = true /\
  snd (set_architecture (Built true true false) c "aarch64") = false /\ snd (set_architecture (Built true true true) c "X86_64") = false.
Proof. intros c. repeat split. Qed.

(** ** C42: constant addresses *)
Theorem addr_const_correct : forall `{FpuOps} c kv a, inr 64 a ->
  eval kv (AddrConst c a) =
    Ok (V TPtr (if a =? 0 then 0 else match c_gbase c with Some b => (b + (a - c_gbase_addr c)) mod 2^64 | None => a end)).
Proof.
  intros ? c kv a A. unfold AddrConst. rewrite (trunc_small 64 a A). destruct (a =? 0); [reflexivity|].
  destruct (c_gbase c) as [b|].
  - cbn. do 2 f_equal.  unfold trunc. rewrite ?Zplus_mod_idemp_r, ?Zplus_mod_idemp_l. reflexivity.
  - cbn. rewrite (trunc_small 64 a A). reflexivity.
Qed.
Print Assumptions addr_const_correct.
Theorem addr_const_identity : forall `{FpuOps} c kv a, inr 64 a ->
  (forall b, c_gbase c = Some b -> b mod 2^64 = c_gbase_addr c mod 2^64) -> eval kv (AddrConst c a) = Ok (V TPtr a).
Proof.
  intros ? c kv a A G. rewrite (addr_const_correct c kv a A). do 2 f_equal. destruct (Z.eqb_spec a 0) as [->|]; [reflexivity|].
  destruct (c_gbase c) as [b|]; [|reflexivity]. specialize (G b eq_refl). unfold inr in A. lia.
Qed.
Print Assumptions addr_const_identity.
Example addr_const_nv : let c := CEnv RV64 None 0 (Some 0x7f0000) 0x10000 (fun _ u => u) in
  eval (H := fpu0) (fun _ : leaf => TyErr) (AddrConst c 0x10010) = Ok (V TPtr 0x7f0010).
Proof. vm_compute. reflexivity. Qed.

(** ** C43: the call-return check *)
(** For every behaviour of the called function that leaves a PC [p]: control goes
    to the code behind the call exactly if [p] is its run-time address, else the
    function is left with [p]. *)
Theorem call_return_check : forall `{FpuOps} c s f a pc p, pc_value c (s_pc s) 0 = Ok pc ->
  u_pc (c_ext c f (to_cpu s pc)) = Some p -> inr 64 p -> a <> 0 ->
  exists s' b, run c s [SCall f; SPcCallret a] = Ok s' /\ pc_branch c (s_pc s') = Ok (V (TInt 1) b, a, 0) /\
    (b = 1 <-> p = runtime_addr c a) /\ (b = 0 <-> p <> runtime_addr c a) /\ pc_value c (s_pc s') 0 = Ok (V (TInt 64) p).
Proof.
  intros ? c s f a pc p PV PU PI A0. unfold run, run1. rewrite PV. cbn [bind]. unfold of_cpu. rewrite PU. cbn [s_pc pc_value bind Z.eqb].
  eexists _, (if p =? addr_pc_base c a then 1 else 0). split; [reflexivity|]. cbn [with_pc s_pc pc_branch pc_value]. rewrite (trunc_small 64 p PI).

  split; [unfold cmp_sem; cbn; destruct (p =? addr_pc_base c a); reflexivity|].
  rewrite addr_pc_base_spec. destruct (Z.eqb_spec p (runtime_addr c a)) as [E|E]; (split; [split; [auto|]; intros; try congruence; lia|]); (split; [split; [|]; intros; try congruence; lia|reflexivity]).
Qed.
Print Assumptions call_return_check.
Example call_return_nv : let c := CEnv RV64 None 0 None 0 (fun _ u => Cpu (Some 0x2000) (u_reg u) (u_mem u)) in
  let s := st_of (g_ex 0x1000 (fun _ => 0)) in
  pc_value c (PcConst 0x3000) 0 = Ok (V (TInt 64) 0x3000) /\ u_pc (c_ext c 7 (to_cpu s (V (TInt 64) 0x3000))) = Some 0x2000 /\
  runtime_addr c 0x1004 <> 0x2000.
Proof. repeat split. vm_compute. discriminate. Qed.
