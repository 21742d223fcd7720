(** Builder statements: what an instruction lifter issues, in order, and their
    direct meaning on an architectural state.

    An instruction lifter (/repo/src/rv64/lifter.cc, /repo/src/a64/main.cc,
    /repo/src/x86-64/lifter-*.cc) is modelled as a function from the decoded
    instruction to a list of [stm]. Each statement corresponds to one or more
    calls on the RegFile (GetReg/Set/Merge/SetPC..., regfile.h:137-165) and on
    the IRBuilder. The meaning given here is the *register map* semantics: a
    register is a plain native-width cell. RegFile.v relates the real register
    file (with its cached, partial and lazily evaluated values) to this map. *)

From Coq Require Import ZArith Lia List Bool.
From Verif Require Import Bits IR Facet.
Import ListNotations.
Open Scope Z_scope.

(** arch.h:30-49. *)
Inductive arch := ArchInvalid | X86_64 | RV64 | AArch64.

(** regfile.h:40-87 ArchReg (kind and index); the INVALID kind is not a register. *)
Inductive areg := GP (i : Z) | FLAG (i : Z) | VEC (i : Z).

Definition areg_eqb (a b : areg) : bool :=
  match a, b with
  | GP i, GP j | FLAG i, FLAG j | VEC i, VEC j => i =? j
  | _, _ => false
  end.
Lemma areg_eqb_eq : forall a b, areg_eqb a b = true <-> a = b.
Proof.
  destruct a, b; simpl; split; intro H; try discriminate; try (apply Z.eqb_eq in H; congruence);
  inversion H; apply Z.eqb_refl.
Qed.
Lemma areg_eqb_refl : forall a, areg_eqb a a = true.
Proof. intros. apply areg_eqb_eq. reflexivity. Qed.
Lemma areg_eqb_neq : forall a b, a <> b -> areg_eqb a b = false.
Proof. intros a b H. destruct (areg_eqb a b) eqn:E; [|reflexivity]. apply areg_eqb_eq in E. contradiction. Qed.

(** regfile.h:98-104 flag registers. *)
Definition ZF := FLAG 0.
Definition SF := FLAG 1.
Definition PF := FLAG 2.
Definition CF := FLAG 3.
Definition OF := FLAG 4.
Definition AF := FLAG 5.
Definition DF := FLAG 6.

(** regfile.cc:195-209 (ivec_facet) and 314-328 NativeFacet. *)
Definition native_facet (a : arch) (r : areg) : facet :=
  match r with
  | GP _ => I64
  | FLAG i => if i =? 2 then I8 else I1
  | VEC _ => match a with RV64 => I64 | _ => V2I64 end
  end.
Definition native_size (a : arch) (r : areg) : Z := facet_size (native_facet a r).

Lemma native_size_pos : forall a r, 0 < native_size a r.
Proof.
  intros a [i|i|i]; unfold native_size, native_facet.
  - reflexivity.
  - destruct (i =? 2); reflexivity.
  - destruct a; reflexivity.
Qed.

(** regfile.h:139-150 Transform, without None and Load. *)
Inductive transform := IsZero | IsNeg | IsULT | AddOverflowFlag | TruncI8 | X86AuxFlag.

(** regfile.cc:145-189 Register::canonicalize: the expression a lazily evaluated
    register stands for. [t] is the type of v1 (regfile.cc:167,181-182 take it
    from the value). *)
Definition transform_exp {L} (tr : transform) (t : ty) (v1 v2 v3 : exp L) : exp L :=
  match tr with
  | IsZero => eCmp EQ v1 (EConst t 0)
  | IsNeg => eCmp SLT v1 (EConst t 0)
  | IsULT => eCmp ULT v1 v2
  | AddOverflowFlag =>
    eCmp SLT (eAnd (eXor (eXor v2 v3) (EConst t (-1))) (eXor v1 v2)) (EConst t 0)
  | TruncI8 => eTrunc 8 v1
  | X86AuxFlag => eCmp NE (eAnd (eXor (eXor v2 v3) v1) (EConst t 16)) (EConst t 0)
  end.

(** Leaves of expressions inside one instruction: temporaries, GetReg calls and
    AddrIPRel (lifter-base.h:119-121). *)
Inductive leaf :=
| DVar (x : nat)
| DReg (r : areg) (f : facet)
| DPc (off : Z).
Definition dexp := exp leaf.
Definition vX (x : nat) : dexp := ELeaf (DVar x).
Definition rG (r : areg) (f : facet) : dexp := ELeaf (DReg r f).

(** Read-modify-write operations (llvm::AtomicRMWInst::BinOp). *)
Inductive rmwop := RXchg | RAdd | RSub | RAnd | ROr | RXor | RMax | RMin | RUMax | RUMin.

Definition rmw_sem (o : rmwop) (w old v : Z) : Z :=
  match o with
  | RXchg => v
  | RAdd => trunc w (old + v)
  | RSub => trunc w (old - v)
  | RAnd => Z.land old v
  | ROr => Z.lor old v
  | RXor => Z.lxor old v
  | RMax => intr2_sem SMax w old v
  | RMin => intr2_sem SMin w old v
  | RUMax => intr2_sem UMax w old v
  | RUMin => intr2_sem UMin w old v
  end.

Inductive stm :=
| SLet (x : nat) (e : dexp)                    (* irb.CreateX *)
| SLoad (x : nat) (t : ty) (addr : dexp)       (* irb.CreateLoad *)
| SStore (v addr : dexp)                       (* irb.CreateStore *)
| SRmw (x : nat) (o : rmwop) (addr v : dexp)   (* irb.CreateAtomicRMW *)
| SCas (x y : nat) (addr k v : dexp)           (* irb.CreateAtomicCmpXchg; x: old value, y: success *)
| SMemset (addr v n : dexp)                    (* irb.CreateMemSet *)
| SSet (r : areg) (v : dexp)                   (* RegFile::Set *)
| SMerge (r : areg) (v : dexp)                 (* RegFile::Merge *)
| SSetT (r : areg) (tr : transform) (t : ty) (v1 v2 v3 : dexp)  (* RegFile::Set(Transform) *)
| SPcConst (a : Z)                             (* RegFile::SetPC(uint64_t) *)
| SPcVal (v : dexp)                            (* RegFile::SetPC(Value) *)
| SPcCond (c : dexp) (a1 a2 : Z)               (* RegFile::SetPCCond *)
| SPcCallret (a : Z)                           (* LifterBase::SetIPCallret *)
| SCall (f : Z)                                (* LifterBase::CallExternalFunction *)
| SRet.                                        (* LifterBase::ForceReturn *)

(** The PC pseudo register, regfile.cc:251-267. *)
Inductive pcreg :=
| PcVal (v : rv)
| PcConst (a : Z)
| PcCond (c : rv) (a1 a2 : Z)
| PcCheck (v : rv) (a : Z).

(** A CPU as seen by an external function: PC, registers, guest memory. [None]
    is a poison register. *)
Record cpu := Cpu { u_pc : option Z; u_reg : areg -> option Z; u_mem : bytes }.

(** Static and dynamic configuration of a lifted function: FunctionInfo's
    pc_base_value/pc_base_addr (function-info.h), LLConfig's global_base_value /
    global_base_addr (config.h:67-71), and the behaviour of external functions. *)
Record cenv := CEnv {
  c_arch : arch;
  c_pcbase : option Z;       (* run-time value of fi.pc_base_value *)
  c_pcbase_addr : Z;
  c_gbase : option Z;        (* run-time value of cfg.global_base_value *)
  c_gbase_addr : Z;
  c_ext : Z -> cpu -> cpu;
}.

(** regfile.cc:289-293 AddrPCBase. *)
Definition addr_pc_base (c : cenv) (a : Z) : Z :=
  match c_pcbase c with
  | Some b => trunc 64 (b + trunc 64 (a - c_pcbase_addr c))
  | None => trunc 64 a
  end.

(** regfile.cc:598-615 GetPCValue. *)
Definition pc_value (c : cenv) (p : pcreg) (off : Z) : res rv :=
  match p with
  | PcVal v | PcCheck v _ =>
    if off =? 0 then Ok v else bin_sem Add v (V (TInt 64) (trunc 64 off))
  | PcConst a => Ok (V (TInt 64) (addr_pc_base c (a + off)))
  | PcCond k a1 a2 =>
    sel_sem k (V (TInt 64) (addr_pc_base c (a1 + off))) (V (TInt 64) (addr_pc_base c (a2 + off)))
  end.

(** regfile.cc:617-633 GetPCBranch: condition, then-address, else-address. *)
Definition pc_branch (c : cenv) (p : pcreg) : res (rv * Z * Z) :=
  match p with
  | PcVal _ => Ok (V (TInt 1) 1, 0, 0)
  | PcConst a => Ok (V (TInt 1) 1, a, 0)
  | PcCond k a1 a2 => Ok (k, a1, a2)
  | PcCheck v a => do k <- cmp_sem EQ v (V (TInt 64) (addr_pc_base c a)); Ok (k, a, 0)
  end.

(** Machine state of the register-map semantics. *)
Record st := St {
  s_reg : areg -> option Z;
  s_pc : pcreg;
  s_mem : bytes;
  s_var : nat -> option rv;
  s_ret : bool;              (* a ForceReturn has been executed *)
}.

(** The value of a register access: GetReg on a plain cell. *)
Definition get_facet (z : option Z) (f : facet) : rv :=
  match z with
  | None => Poison (facet_type f)
  | Some z => V (facet_type f)
                (match f with I8H => trunc 8 (Z.shiftr z 8) | _ => trunc (facet_size f) z end)
  end.

(** Full write: zero-extension to the native size. *)
Definition set_cell (n : Z) (x : rv) : option Z :=
  match x with V _ z => Some (trunc n z) | Poison _ => None end.

(** Partial write of the low [tsize] bits. *)
Definition merge_cell (n : Z) (old : option Z) (x : rv) : option Z :=
  match x with
  | V t z =>
    if n <=? tsize t then Some (trunc n z)
    else match old with
         | Some o => Some (Z.lor (Z.land o (Z.lxor (Z.ones n) (Z.ones (tsize t)))) z)
         | None => None
         end
  | Poison _ => None
  end.

Definition upd_reg (m : areg -> option Z) (r : areg) (v : option Z) : areg -> option Z :=
  fun r' => if areg_eqb r r' then v else m r'.
Definition upd_var (m : nat -> option rv) (x : nat) (v : rv) : nat -> option rv :=
  fun y => if Nat.eqb x y then Some v else m y.

Definition with_reg (s : st) r := St r (s_pc s) (s_mem s) (s_var s) (s_ret s).
Definition with_pc (s : st) p := St (s_reg s) p (s_mem s) (s_var s) (s_ret s).
Definition with_mem (s : st) m := St (s_reg s) (s_pc s) m (s_var s) (s_ret s).
Definition with_var (s : st) v := St (s_reg s) (s_pc s) (s_mem s) v (s_ret s).
Definition with_ret (s : st) b := St (s_reg s) (s_pc s) (s_mem s) (s_var s) b.

Section Run.
Context `{FpuOps}.
Variable c : cenv.

(** Values of the leaves of an expression: variables of the emitted code (C++ locals of the
    lifters), GetReg (regfile.cc:465-567) and GetPCValue (regfile.cc:598-615). *)
Definition leaf_val (s : st) (l : leaf) : res rv :=
  match l with
  | DVar x => match s_var s x with Some v => Ok v | None => TyErr end
  | DReg r f => Ok (get_facet (s_reg s r) f)
  | DPc off => pc_value c (s_pc s) off
  end.
Definition ev (s : st) (e : dexp) : res rv := eval (leaf_val s) e.

(** Memory access: poison address is UB; storing poison is treated as UB. *)
Definition nbytes (t : ty) : nat := Z.to_nat (tsize t / 8).
Definition load_rv (m : bytes) (t : ty) (a : rv) : res rv :=
  match a with
  | V TPtr z => Ok (V t (load_bytes m z (nbytes t)))
  | Poison TPtr => UB
  | _ => TyErr
  end.
Definition store_rv (m : bytes) (v a : rv) : res bytes :=
  match a, v with
  | V TPtr z, V t x => Ok (store_bytes m z (nbytes t) x)
  | V TPtr _, Poison _ => UB
  | Poison TPtr, _ => UB
  | _, _ => TyErr
  end.

(** State handed to an external function (callconv.cc:232-260 Call): the PC is
    stored (OptimizePacks, callconv.cc:310-320) together with all registers. *)
Definition to_cpu (s : st) (pc : rv) : cpu :=
  Cpu (match pc with V _ z => Some z | Poison _ => None end) (s_reg s) (s_mem s).
(** callconv.cc:195-217 Unpack: everything is reloaded afterwards. *)
Definition of_cpu (s : st) (u : cpu) : st :=
  St (u_reg u) (PcVal (match u_pc u with Some z => V (TInt 64) (trunc 64 z) | None => Poison (TInt 64) end))
     (u_mem u) (s_var s) (s_ret s).

Definition run1 (s : st) (i : stm) : res st :=
  match i with
  | SLet x e => do v <- ev s e; Ok (with_var s (upd_var (s_var s) x v))
  | SLoad x t a => do p <- ev s a; do v <- load_rv (s_mem s) t p; Ok (with_var s (upd_var (s_var s) x v))
  | SStore v a => do x <- ev s v; do p <- ev s a; do m <- store_rv (s_mem s) x p; Ok (with_mem s m)
  | SRmw x o a v =>
    do p <- ev s a; do y <- ev s v;
    match y with
    | V (TInt w) z =>
      do old <- load_rv (s_mem s) (TInt w) p;
      match old with
      | V _ oz => do m <- store_rv (s_mem s) (V (TInt w) (rmw_sem o w oz z)) p;
                  Ok (with_mem (with_var s (upd_var (s_var s) x old)) m)
      | _ => UB
      end
    | Poison (TInt _) => UB
    | _ => TyErr
    end
  | SCas x y a k v =>
    do p <- ev s a; do kv <- ev s k; do vv <- ev s v;
    if ty_eqb (ty_of kv) (ty_of vv) then
      match kv, vv with
      | V (TInt w) kz, V _ vz =>
        do old <- load_rv (s_mem s) (TInt w) p;
        match old with
        | V _ oz =>
          do m <- (if oz =? kz then store_rv (s_mem s) (V (TInt w) vz) p else Ok (s_mem s));
          Ok (with_mem (with_var s (upd_var (upd_var (s_var s) x old) y (V (TInt 1) (b2z (oz =? kz))))) m)
        | _ => UB
        end
      | V _ _, _ => TyErr
      | Poison _, _ => UB
      end
    else TyErr
  | SMemset a v n =>
    do p <- ev s a; do b <- ev s v; do k <- ev s n;
    if ty_eqb (ty_of p) TPtr && ty_eqb (ty_of b) (TInt 8) && ty_eqb (ty_of k) (TInt 64) then
      match p, b, k with
      | V _ az, V _ bz, V _ kz =>
        Ok (with_mem s (fun x => if (trunc 64 (x - az) <? kz) && (0 <=? x) && (x <? 2^64) then bz else s_mem s x))
      | _, _, _ => UB
      end
    else TyErr
  | SSet r e => do v <- ev s e; Ok (with_reg s (upd_reg (s_reg s) r (set_cell (native_size (c_arch c) r) v)))
  | SMerge r e => do v <- ev s e; Ok (with_reg s (upd_reg (s_reg s) r (merge_cell (native_size (c_arch c) r) (s_reg s r) v)))
  | SSetT r tr t v1 v2 v3 =>
    do v <- ev s (transform_exp tr t v1 v2 v3);
    Ok (with_reg s (upd_reg (s_reg s) r (set_cell (native_size (c_arch c) r) v)))
  | SPcConst a => Ok (with_pc s (PcConst a))
  | SPcVal e => do v <- ev s e; Ok (with_pc s (PcVal v))
  | SPcCond e a1 a2 => do v <- ev s e; Ok (with_pc s (PcCond v a1 a2))
  | SPcCallret a => do v <- pc_value c (s_pc s) 0; Ok (with_pc s (PcCheck v a))
  | SCall f => do pc <- pc_value c (s_pc s) 0; Ok (of_cpu s (c_ext c f (to_cpu s pc)))
  | SRet => Ok (with_ret s true)
  end.

(** The IR emitted for one instruction, in order of emission. *)
Fixpoint run (s : st) (l : list stm) : res st :=
  match l with
  | nil => Ok s
  | i :: l' => do s' <- run1 s i; run s' l'
  end.

Lemma run_let : forall s x e v l, ev s e = Ok v ->
  run s (SLet x e :: l) = run (with_var s (upd_var (s_var s) x v)) l.
Proof. intros s x e v l E. cbn [run run1]. rewrite E. reflexivity. Qed.
Lemma run_app : forall l1 l2 s, run s (l1 ++ l2) = do s' <- run s l1; run s' l2.
Proof.
  induction l1; intros; cbn [run app bind]; [reflexivity|].
  destruct (run1 s a); cbn [bind]; [apply IHl1|reflexivity|reflexivity].
Qed.
End Run.
