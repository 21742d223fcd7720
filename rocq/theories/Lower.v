(** From builder statements to the emitted function: the instructions of each piece
    of code, the calls on register files and blocks (Cfg.v) that go with them, and
    the executions of the result.

    The blocks of a lifted function (LiftFn.v) give, per guest instruction, the
    statements its lifter issues. [lower] processes them in the order of
    /repo/src/function.cc:134-217, keeping the register files, PHI nodes and CPU
    struct accesses of Cfg.v beside the instructions that are created. *)

From Coq Require Import ZArith Lia ZifyBool List Bool Arith Cantor.
From Verif Require Import Bits IR IrMono IrWf Facet Dsl RegFile RegFileOk RegScript Layout Cfg CfgHeap CfgLog CfgBuild CfgSem Decode LiftFn.
Import ListNotations.
Open Scope Z_scope.

(** ** Instructions *)
(** llvm::Instruction. [IDef] stands for the instructions of one expression (and
    gives its result a name); the others are the memory accesses the lifters create
    with CreateLoad, CreateStore, CreateAtomicRMW, CreateAtomicCmpXchg and
    CreateMemSet. [IPcLoad] is the load of the PC in callconv.cc:202. *)
Inductive inst :=
| IDef (n : nat) (t : ty) (e : exp atom)
| ILoad (n : nat) (t : ty) (a : exp atom)
| IStore (v a : exp atom)
| IRmw (n : nat) (w : Z) (o : rmwop) (a v : exp atom)
| ICas (n n' : nat) (w : Z) (a k v : exp atom)
| IMemset (a v k : exp atom)
| IPcLoad (n : nat).

(** How a piece of code ends: branches (basicblock.cc:72-99), calls
    (callconv.cc:232-260) with the function, the PC to be stored and the register
    file in use afterwards, returns (callconv.cc:219-224) with the PC to be stored. *)
Inductive term :=
| TBr (b : nat)
| TCond (c : exp atom) (b b' : nat)
| TCall (f : Z) (pc : exp atom) (k : nat)
| TRet (pc : exp atom).

(** The PC of a register file (regfile.cc:251-267); compare Dsl.pcreg. *)
Inductive spc :=
| QVal (v : exp atom)
| QConst (a : Z)
| QCond (v : exp atom) (a1 a2 : Z)
| QCheck (v : exp atom) (a : Z).

(** The function under construction: blocks and register files; per register file
    the instructions emitted while it was in use (newest first) and what ended its
    use; LiftHelper::block_map (function.cc:59) and, per block, the PC at its end;
    and the conditions that were folded to a constant (not part of the code's state). *)
Record em := Em {
  m_f : fn;
  m_nx : nat;
  m_code : nat -> list inst;
  m_term : nat -> option term;
  m_blk : list (Z * nat);
  m_pcx : nat -> option (exp atom);
  m_fold : list (nat * exp atom * bool);
}.
Definition em0 : em := Em fn0 0 (fun _ => []) (fun _ => None) [] (fun _ => None) [].
Definition with_f (m : em) (f : fn) : em := Em f (m_nx m) (m_code m) (m_term m) (m_blk m) (m_pcx m) (m_fold m).
(** Instructions are numbered so that the register file they belong to can be told
    from the number. *)
Definition own (n : nat) : nat := fst (Cantor.of_nat n).
Definition emit (m : em) (k : nat) (d : nat) (i : inst) : em :=
  Em (m_f m) (d + m_nx m) (updn (m_code m) k (i :: m_code m k)) (m_term m) (m_blk m) (m_pcx m) (m_fold m).
Definition end_with (m : em) (k : nat) (t : term) : em :=
  Em (m_f m) (m_nx m) (m_code m) (updn (m_term m) k (Some t)) (m_blk m) (m_pcx m) (m_fold m).
Definition num (m : em) (k d : nat) : nat := Cantor.to_nat (k, d + m_nx m)%nat.

(** The lifter's position: block, its register file, the values of the lifter's
    local variables, the PC. *)
Record loc := Loc { x_b : nat; x_k : nat; x_var : nat -> option value; x_pc : option spc }.
Definition with_x (q : loc) (x : nat) (v : value) : loc :=
  Loc (x_b q) (x_k q) (fun y => if Nat.eqb x y then Some v else x_var q y) (x_pc q).
Definition with_q (q : loc) (p : spc) : loc := Loc (x_b q) (x_k q) (x_var q) (Some p).

(** ** Legality, decidable *)
Definition okwb (w : Z) : bool := existsb (Z.eqb w) [1; 8; 16; 32; 64; 128].
Definition okscalarb (t : ty) : bool := match t with TInt w => okwb w | TF32 | TF64 => true | _ => false end.
Definition oktyb (n : nk) (t : ty) : bool :=
  match t with
  | TPtr => (nz n =? 64) && nb n
  | TVec m e => negb (nb n) && (0 <? m) && okscalarb e && okwb (tsize t)
  | TInt w => okwb w
  | _ => negb (nb n)
  end && (tsize t <=? nz n).
Definition facet_okb (n : nk) (f : facet) : bool :=
  match f with
  | I1 => nz n =? 1
  | I8H => (nz n =? 64) && nb n
  | F_MAX | FI | VI8 | VI16 | VI32 | VI64 | VF32 | VF64 => false
  | _ => oktyb n (facet_type f)
  end.
(** The registers that are only in the CPU struct: the bases of FS and GS
    (/repo/src/x86-64/lifter-operand.cc:84-86) and TPIDR_EL0
    (/repo/src/a64/main.cc:272-276, 305-310). *)
Definition sysb (A : arch) (r : areg) : bool :=
  match A with X86_64 => areg_eqb r (GP 257) || areg_eqb r (GP 256) | AArch64 => areg_eqb r (GP 256) | _ => false end.
(** The registers the CPU struct has. *)
Definition held (A : arch) (r : areg) : Prop := mapped A r \/ sysb A r = true.
(** A value that is the result of an instruction. *)
Definition is_var (v : value) : bool := match v_e v with ELeaf (AVar _ t) => ty_eqb (v_ty v) t | _ => false end.
Definition flag_opsb (tr : transform) (v1 v2 v3 : value) : bool :=
  let w := tsize (v_ty v1) in
  let ok v := is_var v && ty_eqb (v_ty v) (TInt w) in
  match tr with
  | IsZero | IsNeg => ok v1 && (0 <? w)
  | TruncI8 => ok v1 && (8 <=? w)
  | IsULT => ok v1 && ok v2 && (0 <? w)
  | AddOverflowFlag => ok v1 && ok v2 && ok v3 && (0 <? w)
  | X86AuxFlag => ok v1 && ok v2 && ok v3 && (8 <=? w)
  end.

Section Lower.
Context `{FpuOps}.
Variable c : cenv.
Notation A := (c_arch c).
Variable Ins : Type.
Variable ds : dst Ins.
(** Address of the first instruction. *)
Variable a0 : Z.
(** Which conditions (of the code of which register file) IRBuilder has folded to
    constants (function.cc:190), and the outcome of the capacity test in
    regfile.cc:559. *)
Variable cfold : nat -> exp atom -> option bool.
Variable gcache : nat -> bool.

Definition mappedb (r : areg) : bool := existsb (areg_eqb r) (map fst (reg_slots A)).
Definition wtypedb (w : wop) : bool :=
  match w with
  | WSet r v | WMerge r v => is_var v && oktyb (kd A r) (v_ty v)
  | WLazy r tr v1 v2 v3 => oktyb (kd A r) (TInt (flag_width tr)) && flag_opsb tr v1 v2 v3
  | WGet _ r f => facet_okb (kd A r) f
  end.
Definition ownb (k : nat) (v : value) : bool := match v_e v with ELeaf (AVar n _) => Nat.leb (own n) k | _ => false end.
Definition roomb (f : fn) (t : nat) : bool :=
  Nat.ltb 0 t && Nat.ltb t (f_nb f) &&
  match f_max f t with Some m => Nat.ltb (length (f_preds f t)) m | None => match f_first f t with None => true | _ => false end end.
Definition is_nil {T} (l : list T) : bool := match l with [] => true | _ => false end.
(** CfgBuild.clegal. *)
Definition clegalb (f : fn) (o : cop) : bool :=
  match o with
  | CBlock _ => true
  | CEntry => Nat.eqb (f_n f) 0 && Nat.ltb 0 (f_nb f)
  | CInit b seal => Nat.ltb 0 b && Nat.ltb b (f_nb f) && (match f_first f b with None => true | _ => false end) && Nat.ltb 0 (f_n f) &&
                    (negb seal || match f_max f b with None => true | _ => false end)
  | CReg b w => Nat.ltb b (f_nb f) && is_nil (f_succs f b) && mappedb (wreg w) && wtypedb w &&
                match f_file f b with Some k => forallb (ownb k) (wvals w) | None => false end
  | CCall b | CRet b => Nat.ltb b (f_nb f) && is_nil (f_succs f b)
  | CBr b t => Nat.ltb b (f_nb f) && roomb f t
  | CCond b t o => Nat.ltb b (f_nb f) && roomb f t && roomb f o
  end.
(** An operation on blocks and register files; [None] if an assertion fails, or if it
    is not one the register file supports. *)
Definition cop1 (m : em) (o : cop) : option em :=
  if clegalb (m_f m) o then opt f <- cexec1 A (m_f m) o; Some (with_f m f) else None.

(** ** Expressions *)
(** regfile.cc:598-615 GetPCValue. *)
Definition pc_exp (p : spc) (off : Z) : exp atom :=
  match p with
  | QVal v | QCheck v _ => if off =? 0 then v else E2 (OBin Add) v (EConst (TInt 64) off)
  | QConst a => EConst (TInt 64) (addr_pc_base c (a + off))
  | QCond v a1 a2 => E3 OSel v (EConst (TInt 64) (addr_pc_base c (a1 + off))) (EConst (TInt 64) (addr_pc_base c (a2 + off)))
  end.
(** lifter-base.h:74-76 GetReg. *)
Definition get (q : loc) (m : em) (r : areg) (f : facet) : option (em * value) :=
  opt m <- cop1 m (CReg (x_b q) (WGet (gcache (length (f_log (m_f m)))) r f));
  match f_log (m_f m) with (_, Some v) :: _ => Some (m, v) | _ => None end.
(** An expression: its operands from left to right (C++ leaves the order open), with
    the type of the result; [None] if ill-typed, or if a type has no bits (LLVM has no
    such types). Registers that are only in the CPU
    struct are loaded from there. Simplification: as if at the beginning of the piece
    of code; [lower] fails for functions that write them. *)
Fixpoint low (q : loc) (m : em) (e : dexp) : option (em * exp atom * ty) :=
  match e with
  | ELeaf (DVar x) => opt v <- x_var q x; Some (m, v_e v, v_ty v)
  | ELeaf (DReg r f) =>
      if sysb A r then match f with I64 => Some (m, ELeaf (ASlot (x_k q) r (TInt 64)), TInt 64) | _ => None end
      else opt (m, v) <- get q m r f; Some (m, v_e v, facet_type f)
  | ELeaf (DPc off) => opt p <- x_pc q; Some (m, pc_exp p off, TInt 64)
  | EConst t z => if twf t then Some (m, EConst t z, t) else None
  | EUndef t => if twf t then Some (m, EUndef t, t) else None
  | E1 o a => opt (m, a, s) <- low q m a; opt t <- chk_ty (ty1 o s); Some (m, E1 o a, t)
  | E2 o a b => opt (m, a, s) <- low q m a; opt (m, b, u) <- low q m b; opt t <- chk_ty (ty2 o s u); Some (m, E2 o a b, t)
  | E3 o a b d => opt (m, a, s) <- low q m a; opt (m, b, u) <- low q m b; opt (m, d, v) <- low q m d;
                  opt t <- chk_ty (ty3 o s u v); Some (m, E3 o a b d, t)
  | EIf a b d => opt (m, a, s) <- low q m a; opt (m, b, u) <- low q m b; opt (m, d, v) <- low q m d;
                 if ty_eqb s (TInt 1) && ty_eqb u v then Some (m, EIf a b d, u) else None
  end.
Definition vvar (n : nat) (t : ty) : value := Val t (ELeaf (AVar n t)).
(** Evaluate an expression and name the result. *)
Definition def (q : loc) (m : em) (e : dexp) : option (em * value) :=
  opt (m, x, t) <- low q m e;
  Some (emit m (x_k q) 1 (IDef (num m (x_k q) 0) t x), vvar (num m (x_k q) 0) t).
(** ... with a given type. *)
Definition deft (q : loc) (m : em) (e : dexp) (t : ty) : option (em * value) :=
  opt (m, v) <- def q m e; if ty_eqb (v_ty v) t then Some (m, v) else None.
Definition lowt (q : loc) (m : em) (e : dexp) (t : ty) : option (em * exp atom) :=
  opt (m, x, t') <- low q m e; if ty_eqb t' t then Some (m, x) else None.

(** ** Statements *)
(** A register write. *)
Definition wr (q : loc) (m : em) (w : wop) : option (em * loc) := opt m <- cop1 m (CReg (x_b q) w); Some (m, q).
(** The types that can be accessed in memory; atomic accesses are of integers. *)
Definition bytes_ty (t : ty) : bool := twf t && (tsize t mod 8 =? 0).
Definition byte_w (t : ty) : option Z := match t with TInt w => if bytes_ty t then Some w else None | _ => None end.
(** One statement; calls and returns are [lcall] and [lret]. *)
Definition lstm (q : loc) (m : em) (i : stm) : option (em * loc) :=
  let k := x_k q in
  match i with
  | SLet x e => opt (m, v) <- def q m e; Some (m, with_x q x v)
  | SLoad x t a => opt (m, a) <- lowt q m a TPtr;
      if bytes_ty t then Some (emit m k 1 (ILoad (num m k 0) t a), with_x q x (vvar (num m k 0) t)) else None
  | SStore v a => opt (m, v, _) <- low q m v; opt (m, a) <- lowt q m a TPtr; Some (emit m k 0 (IStore v a), q)
  | SRmw x o a v => opt (m, a) <- lowt q m a TPtr; opt (m, v, t) <- low q m v; opt w <- byte_w t;
      Some (emit m k 1 (IRmw (num m k 0) w o a v), with_x q x (vvar (num m k 0) (TInt w)))
  | SCas x y a d v => opt (m, a) <- lowt q m a TPtr; opt (m, d, t) <- low q m d; opt w <- byte_w t; opt (m, v) <- lowt q m v (TInt w);
      Some (emit m k 2 (ICas (num m k 0) (num m k 1) w a d v), with_x (with_x q x (vvar (num m k 0) (TInt w))) y (vvar (num m k 1) (TInt 1)))
  | SMemset a v n => opt (m, a) <- lowt q m a TPtr; opt (m, v) <- lowt q m v (TInt 8); opt (m, n) <- lowt q m n (TInt 64);
      Some (emit m k 0 (IMemset a v n), q)
  | SSet r e => opt (m, v) <- def q m e; wr q m (WSet r v)
  | SMerge r e => opt (m, v) <- def q m e; wr q m (WMerge r v)
  | SSetT r tr t v1 v2 v3 =>
      opt (m, v1) <- deft q m v1 t;
      match tr with
      | IsZero | IsNeg | TruncI8 => wr q m (WLazy r tr v1 v1 v1)
      | IsULT => opt (m, v2) <- deft q m v2 t; wr q m (WLazy r tr v1 v2 v1)
      | AddOverflowFlag | X86AuxFlag => opt (m, v2) <- deft q m v2 t; opt (m, v3) <- deft q m v3 t; wr q m (WLazy r tr v1 v2 v3)
      end
  | SPcConst a => Some (m, with_q q (QConst a))
  | SPcVal e => opt (m, v) <- deft q m e (TInt 64); Some (m, with_q q (QVal (v_e v)))
  | SPcCond e a1 a2 => opt (m, v) <- deft q m e (TInt 1); Some (m, with_q q (QCond (v_e v) a1 a2))
  | SPcCallret a => opt (m, v) <- deft q m (ELeaf (DPc 0)) (TInt 64); Some (m, with_q q (QCheck (v_e v) a))
  | SCall _ | SRet => None
  end.
(** lifter-base.h:124 CallExternalFunction, callconv.cc:232-260. The lifters do not use
    values from before a call after it. *)
Definition lcall (q : loc) (m : em) (f : Z) : option (em * loc) :=
  opt p <- x_pc q;
  let k' := f_n (m_f m) in
  opt m <- cop1 m (CCall (x_b q));
  let m := end_with m (x_k q) (TCall f (pc_exp p 0) k') in
  Some (emit m k' 1 (IPcLoad (num m k' 0)), Loc (x_b q) k' (fun _ => None) (Some (QVal (ELeaf (AVar (num m k' 0) (TInt 64)))))).
(** lifter-base.h:126-128 ForceReturn. *)
Definition lret (q : loc) (m : em) : option em :=
  opt p <- x_pc q; opt m <- cop1 m (CRet (x_b q)); Some (end_with m (x_k q) (TRet (pc_exp p 0))).
(** The statements of an instruction; no position if they end in a return. *)
Fixpoint lstms (q : loc) (m : em) (l : list stm) : option (em * option loc) :=
  match l with
  | [] => Some (m, Some q)
  | SCall f :: l' => opt (m, q) <- lcall q m f; lstms q m l'
  | SRet :: l' => opt m <- lret q m; if is_nil l' then Some (m, None) else None
  | i :: l' => opt (m, q) <- lstm q m i; lstms q m l'
  end.

(** ** Blocks *)
Definition exitb : nat := 2.
Definition blk_at (l : list (Z * nat)) (a : Z) : option nat :=
  match find (fun x => fst x =? a) l with Some (_, b) => Some b | None => None end.
(** function.cc:71-91 ResolveAddr; 100: the entry point has one more predecessor. *)
Definition rblk (m : em) (a : Z) : option (em * nat) :=
  if resolve Ins ds a then
    match blk_at (m_blk m) a with
    | Some b => Some (m, b)
    | None =>
      let b := f_nb (m_f m) in
      opt m <- cop1 m (CBlock (Some (e_preds (f_map _ ds a) + (if (a =? a0)%Z then 1 else 0))%nat));
      Some (Em (m_f m) (m_nx m) (m_code m) (m_term m) ((a, b) :: m_blk m) (m_pcx m) (m_fold m), b)
    end
  else Some (m, exitb).
Definition set_pcx (m : em) (b : nat) (x : exp atom) : em := Em (m_f m) (m_nx m) (m_code m) (m_term m) (m_blk m) (updn (m_pcx m) b (Some x)) (m_fold m).
Definition add_fold (m : em) (k : nat) (x : exp atom) (z : bool) : em := Em (m_f m) (m_nx m) (m_code m) (m_term m) (m_blk m) (m_pcx m) ((k, x, z) :: m_fold m).
Definition lbr (q : loc) (m : em) (t : nat) : option em :=
  opt m <- cop1 m (CBr (x_b q) t); Some (end_with m (x_k q) (TBr t)).
Definition lcond (q : loc) (m : em) (x : exp atom) (a1 a2 : Z) : option em :=
  match cfold (x_k q) x with
  | Some z => opt (m, t) <- rblk (add_fold m (x_k q) x z) (if z then a1 else a2); lbr q m t
  | None => opt (m, t) <- rblk m a1; opt (m, o) <- rblk m a2;
            opt m <- cop1 m (CCond (x_b q) t o);
            Some (end_with m (x_k q) (if Nat.eqb t o then TBr t else TCond x t o))
  end.
(** function.cc:182-193. *)
Definition lend (q : loc) (m : em) (e : bend) : option em :=
  opt p <- x_pc q;
  let m := set_pcx m (x_b q) (pc_exp p 0) in
  match e with
  | BRet => None
  | BExit => lbr q m exitb
  | BBranch =>
    match p with
    | QVal _ => lbr q m exitb
    | QConst a => opt (m, t) <- rblk m a; lbr q m t
    | QCond v a1 a2 => lcond q m v a1 a2
    | QCheck v a => lcond q m (eCmp EQ v (EConst (TInt 64) (addr_pc_base c a))) a 0
    end
  end.
Fixpoint lsegs (q : loc) (m : em) (l : list (seg (LA := plain_lang) Ins)) (e : bend) : option em :=
  match l with
  | [] => lend q m e
  | (_, _, code) :: l' =>
    opt (m, x) <- lstms q m code;
    match x with
    | Some q => lsegs q m l' e
    | None => if is_nil l' then match e with BRet => Some m | _ => None end else None
    end
  end.
(** function.cc:163-169. *)
Definition lblk (m : em) (b : lblock (LA := plain_lang) Ins) : option em :=
  if resolve Ins ds (lb_addr _ b) then
    opt (m, t) <- rblk m (lb_addr _ b);
    let k := f_n (m_f m) in
    opt m <- cop1 m (CInit t false);
    lsegs (Loc t k (fun _ => None) None) m (lb_code _ b) (lb_end _ b)
  else None.
Fixpoint lblks (m : em) (l : list (lblock (LA := plain_lang) Ins)) : option em :=
  match l with [] => Some m | b :: l' => opt m <- lblk m b; lblks m l' end.
(** function.cc:134-144. The load of the PC in the entry block is used only for
    pc_base_value, whose value is [c_pcbase]. *)
Definition lstart : option em :=
  opt m <- cop1 em0 (CBlock (Some 0%nat));
  opt m <- cop1 m CEntry;
  opt (m, t) <- rblk m a0;
  if Nat.eqb t 1 then opt m <- lbr (Loc 0 0 (fun _ => None) None) m 1; cop1 m (CBlock None) else None.
(** function.cc:198-217 (for tail_function see [treturn]). The second component is the number
    of the PHI node for the PC. *)
Definition lfin (m : em) : option (em * nat) :=
  let k := f_n (m_f m) in
  opt m <- cop1 m (CInit exitb true);
  let n := num m k 0 in
  opt m <- cop1 m (CRet exitb);
  Some (end_with m k (TRet (ELeaf (AVar n (TInt 64)))), n).
Definition lower (bs : list (lblock (LA := plain_lang) Ins)) : option (em * nat) :=
  opt m <- lstart; opt m <- lblks m bs; lfin m.

(** ** Executions *)
(** Memory effects, Dsl.run1. *)
Definition rmw_mem (m : bytes) (o : rmwop) (p y : rv) : res (rv * bytes) :=
  match y with
  | V (TInt w) z =>
    do old <- load_rv m (TInt w) p;
    match old with
    | V _ oz => do m' <- store_rv m (V (TInt w) (rmw_sem o w oz z)) p; Ok (old, m')
    | _ => UB
    end
  | Poison (TInt _) => UB
  | _ => TyErr
  end.
Definition cas_mem (m : bytes) (p kv vv : rv) : res (rv * rv * bytes) :=
  if ty_eqb (ty_of kv) (ty_of vv) then
    match kv, vv with
    | V (TInt w) kz, V _ vz =>
      do old <- load_rv m (TInt w) p;
      match old with
      | V _ oz => do m' <- (if oz =? kz then store_rv m (V (TInt w) vz) p else Ok m); Ok (old, V (TInt 1) (b2z (oz =? kz)), m')
      | _ => UB
      end
    | V _ _, _ => TyErr
    | Poison _, _ => UB
    end
  else TyErr.
Definition set_mem (m : bytes) (p b k : rv) : res bytes :=
  if ty_eqb (ty_of p) TPtr && ty_eqb (ty_of b) (TInt 8) && ty_eqb (ty_of k) (TInt 64) then
    match p, b, k with
    | V _ az, V _ bz, V _ kz => Ok (fun x => if (trunc 64 (x - az) <? kz) && (0 <=? x) && (x <? 2^64) then bz else m x)
    | _, _, _ => UB
    end
  else TyErr.
(** The results and the memory after one instruction; [p] is the PC in the CPU struct
    at the beginning of the piece of code. *)
Definition istep (e : env) (p : rv) (m : bytes) (i : inst) : res (list (atom * rv) * bytes) :=
  match i with
  | IDef n t x => do v <- vev e x; Ok ([(AVar n t, v)], m)
  | ILoad n t a => do q <- vev e a; do v <- load_rv m t q; Ok ([(AVar n t, v)], m)
  | IStore v a => do x <- vev e v; do q <- vev e a; do m' <- store_rv m x q; Ok ([], m')
  | IRmw n w o a v => do q <- vev e a; do y <- vev e v; do r <- rmw_mem m o q y; let '(x, m') := r in Ok ([(AVar n (TInt w), x)], m')
  | ICas n n' w a k v => do q <- vev e a; do kv <- vev e k; do vv <- vev e v; do r <- cas_mem m q kv vv;
      let '(x, y, m') := r in Ok ([(AVar n (TInt w), x); (AVar n' (TInt 1), y)], m')
  | IMemset a v k => do q <- vev e a; do b <- vev e v; do n <- vev e k; do m' <- set_mem m q b n; Ok ([], m')
  | IPcLoad n => Ok ([(AVar n (TInt 64), p)], m)
  end.
(** The instructions of a piece of code, executed with the values [e]: the memory
    afterwards, or the error of the first instruction that fails. *)
Inductive iseq (e : env) (p : rv) : bytes -> list inst -> res bytes -> Prop :=
| is_nil_ : forall m, iseq e p m [] (Ok m)
| is_ok : forall m i l xs m' r, istep e p m i = Ok (xs, m') -> (forall a x, In (a, x) xs -> e a = x) -> iseq e p m' l r -> iseq e p m (i :: l) r
| is_ub : forall m i l, istep e p m i = UB -> iseq e p m (i :: l) UB
| is_ty : forall m i l, istep e p m i = TyErr -> iseq e p m (i :: l) TyErr.

Section Exec.
Variable m : em.
Variable npc : nat.
Variable L : lifted.
Notation f := (l_fn L).

(** The code of register file [k], oldest instruction first. *)
Definition code_of (k : nat) : list inst := rev (m_code m k).
(** The CPU struct as an external function sees it, and as it leaves it. *)
Definition cpu_of (S : slots) (p : rv) (mem : bytes) : cpu := Cpu (rbits p) (fun r => rbits (S r)) mem.
Definition pc_rv (x : option Z) : rv := match x with Some z => V (TInt 64) (trunc 64 z) | None => Poison (TInt 64) end.
(** A poison condition is undefined behaviour. *)
Definition pick (e : env) (x : exp atom) (t o : nat) : res nat :=
  do v <- vev e x;
  match v with V (TInt 1) z => Ok (if z =? 0 then o else t) | Poison (TInt 1) => UB | _ => TyErr end.
Definition next_blk (e : env) (t : term) : option (res nat) :=
  match t with TBr t => Some (Ok t) | TCond x t o => Some (pick e x t o) | _ => None end.

(** Loads from the CPU struct (CfgSem.loads_ok), and those of [low]. *)
Definition sys_ok (k : nat) (e : env) (S : slots) : Prop := forall r, sysb A r = true -> e (ASlot k r (TInt 64)) = S r.
Definition lds_ok (k : nat) (e : env) (S : slots) : Prop := loads_ok A L k e S /\ sys_ok k e S.
(** [irun S0 p0 m0 k e S p mem]: a call of the function with the CPU struct [S0], [p0]
    (PC) and the memory [m0] can get to the beginning of the code of register file
    [k], with the values [e], the CPU struct [S], [p] and the memory [mem]. The
    values of the instructions of that code ([owner]) are new, all others are kept;
    PHI nodes have the values that belong to the branch taken. *)
Inductive irun (S0 : slots) (p0 : rv) (m0 : bytes) : nat -> env -> slots -> rv -> bytes -> Prop :=
| ir_entry : forall e, env_ok A e -> slots_ok A S0 -> lds_ok 0 e S0 -> irun S0 p0 m0 0 e S0 p0 m0
| ir_call : forall k e S p mem mem' g x pv k' e' S', irun S0 p0 m0 k e S p mem ->
    iseq e p mem (code_of k) (Ok mem') -> m_term m k = Some (TCall g x k') -> vev e x = Ok pv ->
    let u := c_ext c g (cpu_of (end_slots L e S k) pv mem') in
    env_ok A e' -> slots_ok A S' -> (forall r, held A r -> rbits (S' r) = u_reg u r) ->
    (forall a, owner own L a <> Some k' -> e' a = e a) -> lds_ok k' e' S' ->
    irun S0 p0 m0 k' e' S' (pc_rv (u_pc u)) (u_mem u)
| ir_branch : forall k e S p mem mem' t b b' k' e', irun S0 p0 m0 k e S p mem ->
    iseq e p mem (code_of k) (Ok mem') -> m_term m k = Some t -> next_blk e t = Some (Ok b') ->
    f_bb f k = b -> f_first f b' = Some k' ->
    env_ok A e' -> (forall a, owner own L a <> Some k' -> e' a = e a) ->
    (forall r inc, In (b', r, inc) (l_phis L) -> exists v, In (b, v) inc /\ vev e (v_e v) = Ok (e' (APhi b' r))) ->
    (b' = exitb -> exists x, m_pcx m b = Some x /\ vev e x = Ok (e' (AVar npc (TInt 64)))) ->
    lds_ok k' e' (end_slots L e S k) ->
    irun S0 p0 m0 k' e' (end_slots L e S k) p mem'.
(** The function returns at the end of the code of the register file [k], with the CPU
    struct [S], [p] and the memory [mem]. *)
Definition ireturn_at (S0 : slots) (p0 : rv) (m0 : bytes) (k : nat) (S : slots) (p : rv) (mem : bytes) : Prop :=
  exists e S1 p1 m1 x, irun S0 p0 m0 k e S1 p1 m1 /\ iseq e p1 m1 (code_of k) (Ok mem) /\ m_term m k = Some (TRet x) /\
    vev e x = Ok p /\ S = end_slots L e S1 k.
Definition ireturn (S0 : slots) (p0 : rv) (m0 : bytes) (S : slots) (p : rv) (mem : bytes) : Prop :=
  exists k, ireturn_at S0 p0 m0 k S p mem.
(** function.cc:210-217 and callconv.cc:232-260 CallConv::Call with tail_call: with a
    tail function, the exit block packs the registers like a return, passes the CPU
    struct to that function in a musttail call, and returns; returns emitted by
    ForceReturn (lifter-base.h:126-128) do not. [u] is the CPU struct, PC and memory
    after the return. Simplification: the calling convention of the tail function,
    which may differ from the function's own, is not modelled. *)
Definition treturn (tail : option Z) (S0 : slots) (p0 : rv) (m0 : bytes) (u : cpu) : Prop :=
  exists k S p mem, ireturn_at S0 p0 m0 k S p mem /\
    u = match tail with
        | Some T => match f_first f exitb with
                    | Some k' => if Nat.eqb k k' then c_ext c T (cpu_of S p mem) else cpu_of S p mem
                    | None => cpu_of S p mem
                    end
        | None => cpu_of S p mem
        end.
(** Undefined behaviour, or ill-formed code. *)
Definition ifail (S0 : slots) (p0 : rv) (m0 : bytes) : Prop :=
  exists k e S p mem, irun S0 p0 m0 k e S p mem /\
    ((exists r, iseq e p mem (code_of k) r /\ forall m', r <> Ok m') \/
     exists mem', iseq e p mem (code_of k) (Ok mem') /\
       match m_term m k with
       | None => True
       | Some (TCall _ x _) | Some (TRet x) => forall y, vev e x <> Ok y
       | Some t => forall b, next_blk e t <> Some (Ok b)
       end).
End Exec.
End Lower.
