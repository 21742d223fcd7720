(** Basic blocks, calls, the elimination and hoisting of CPU struct stores and
    the construction of PHI nodes: models of /repo/src/basicblock.cc and
    /repo/src/callconv.cc (Pack, Unpack, Call, Return, OptimizePacks), and the
    executions of the function they build. *)

From Coq Require Import ZArith Lia List Bool.
From Verif Require Import Bits IR Facet Dsl RegFile RegFileOk RegScript Layout.
Import ListNotations.
Open Scope Z_scope.

(** callconv.cc:116-172 CPUStructEntries: registers with a slot and the type of
    the slot (entries without a register, callconv.cc:204,316, left out). *)
Definition reg_slots (a : arch) : list (areg * facet) :=
  flat_map (fun e => match le_reg e with Some (Some r, f) => [(r, f)] | _ => [] end) (desc a).

(** ** Construction *)

(** function-info.h CallConvPack: a register file whose values must be in the CPU
    struct before an instruction (a call or a return) of block [pk_bb]. [pk_next]
    is not part of the code's record: the register file in use after the call. *)
Record pack := Pack { pk_file : nat; pk_bb : nat; pk_next : option nat }.

(** The blocks of a function under construction (basicblock.h:77-89), its
    register files and packs. [f_first] (first register file of a block), [f_bb]
    (block of a register file) and [f_log] (all register file operations so far
    with their results, newest first) are history, not part of the code's state. *)
Record fn := Fn {
  f_n : nat;                      (* number of register files *)
  f_h : rfs;
  f_nb : nat;                     (* number of blocks *)
  f_max : nat -> option nat;      (* max_preds; None: SIZE_MAX *)
  f_file : nat -> option nat;     (* regfile; None: null *)
  f_preds : nat -> list nat;
  f_succs : nat -> list nat;
  f_packs : list pack;
  f_first : nat -> option nat;
  f_bb : nat -> nat;
  f_log : list (rop * option value);
}.
Definition fn0 : fn := Fn 0 h0 0 (fun _ => None) (fun _ => None) (fun _ => []) (fun _ => []) [] (fun _ => None) (fun _ => O) [].
Definition updn {T} (m : nat -> T) (k : nat) (x : T) : nat -> T := fun k' => if Nat.eqb k k' then x else m k'.

Section Arch.
Context `{FpuOps}.
Variable A : arch.

(** One call on a register file. *)
Definition do_rop (f : fn) (o : rop) : option fn :=
  opt (n, h, x) <- exec1 A (f_n f, f_h f) o;
  Some (Fn n h (f_nb f) (f_max f) (f_file f) (f_preds f) (f_succs f) (f_packs f) (f_first f) (f_bb f) ((o, x) :: f_log f)).
Fixpoint do_rops (f : fn) (l : list rop) : option fn :=
  match l with [] => Some f | o :: l' => opt f <- do_rop f o; do_rops f l' end.

(** basicblock.cc:50-56 the constructor. *)
Definition new_block (f : fn) (max : option nat) : fn :=
  Fn (f_n f) (f_h f) (S (f_nb f)) (updn (f_max f) (f_nb f) max) (updn (f_file f) (f_nb f) None)
     (updn (f_preds f) (f_nb f) []) (updn (f_succs f) (f_nb f) []) (f_packs f) (updn (f_first f) (f_nb f) None) (f_bb f) (f_log f).

(** basicblock.h:59-61 InitEmpty followed by regfile.cc:219-225 InitWith*: block
    [b] gets a new register file. *)
Definition new_file (f : fn) (b : nat) (i : rinit) : option fn :=
  let k := f_n f in
  opt f <- do_rop f (ONew i);
  Some (Fn (f_n f) (f_h f) (f_nb f) (f_max f) (updn (f_file f) b (Some k)) (f_preds f) (f_succs f) (f_packs f)
           (match f_first f b with None => updn (f_first f) b (Some k) | _ => f_first f end) (updn (f_bb f) k b) (f_log f)).

(** basicblock.cc:58-70 InitWithPHIs. *)
Definition init_with_phis (f : fn) (b : nat) (seal : bool) : option fn :=
  match f_preds f b with
  | [p] => if seal || (match f_max f b with Some 1%nat => true | _ => false end)
           then match f_file f p with Some k => new_file f b (InitParent k) | None => None end
           else new_file f b (InitPhi b)
  | _ => new_file f b (InitPhi b)
  end.

(** callconv.cc:195-217 Unpack (with get_from_reg returning null, callconv.cc:227,256):
    the registers become pending loads of their slots and are not dirty. The load
    of the PC (202) is not modelled here. *)
Definition unpack (f : fn) (b : nat) : option fn :=
  let k := f_n f in
  opt f <- new_file f b InitNone;
  do_rops f (map (fun '(r, fc) => OLoad k r k (facet_type fc)) (reg_slots A)).

(** callconv.cc:187-192 Pack. *)
Definition do_pack (f : fn) (b : nat) (next : option nat) : option fn :=
  opt k <- f_file f b;
  Some (Fn (f_n f) (f_h f) (f_nb f) (f_max f) (updn (f_file f) b None) (f_preds f) (f_succs f)
           (f_packs f ++ [Pack k b next]) (f_first f) (f_bb f) (f_log f)).

(** callconv.cc:232-260 Call without tail_call. *)
Definition do_call (f : fn) (b : nat) : option fn := opt f <- do_pack f b (Some (f_n f)); unpack f b.
(** callconv.cc:219-224 Return, and Call with tail_call (247-254). *)
Definition do_ret (f : fn) (b : nat) : option fn := do_pack f b None.

(** basicblock.cc:72-80 BranchTo ([None]: failed assertion or null dereference). *)
Definition branch_to (f : fn) (b t : nat) : option fn :=
  match f_file f b, f_succs f b with
  | Some _, [] =>
    Some (Fn (f_n f) (f_h f) (f_nb f) (f_max f) (f_file f) (updn (f_preds f) t (f_preds f t ++ [b]))
             (updn (f_succs f) b (f_succs f b ++ [t])) (f_packs f) (f_first f) (f_bb f) (f_log f))
  | _, _ => None
  end.
(** basicblock.cc:82-99 BranchTo with a condition. *)
Definition cond_branch_to (f : fn) (b t o : nat) : option fn :=
  if Nat.eqb t o then branch_to f b t else
  match f_file f b, f_succs f b with
  | Some _, [] =>
    let preds := updn (f_preds f) t (f_preds f t ++ [b]) in
    Some (Fn (f_n f) (f_h f) (f_nb f) (f_max f) (f_file f) (updn preds o (preds o ++ [b]))
             (updn (f_succs f) b [t; o]) (f_packs f) (f_first f) (f_bb f) (f_log f))
  | _, _ => None
  end.

(** What the instruction lifters do with the register file of their block
    (regfile.h:137-157). *)
Inductive wop :=
| WSet (r : areg) (v : value)
| WMerge (r : areg) (v : value)
| WLazy (r : areg) (tr : transform) (v1 v2 v3 : value)
| WGet (cache : bool) (r : areg) (f : facet).
Definition to_rop (k : nat) (w : wop) : rop :=
  match w with
  | WSet r v => OSet k r v
  | WMerge r v => OMerge k r v
  | WLazy r tr v1 v2 v3 => OLazy k r tr v1 v2 v3
  | WGet c r f => OGet c k r f
  end.
Definition wreg (w : wop) : areg := match w with WSet r _ | WMerge r _ | WLazy r _ _ _ _ | WGet _ r _ => r end.
Definition wvals (w : wop) : list value :=
  match w with WSet _ v | WMerge _ v => [v] | WLazy _ _ v1 v2 v3 => [v1; v2; v3] | WGet _ _ _ => [] end.

(** The operations of function.cc:134-217 and of the lifters. Block 0 is the entry
    block (function.cc:134-139). *)
Inductive cop :=
| CBlock (max : option nat)
| CEntry
| CInit (b : nat) (seal : bool)
| CReg (b : nat) (w : wop)
| CCall (b : nat)
| CRet (b : nat)
| CBr (b t : nat)
| CCond (b t o : nat).
Definition cexec1 (f : fn) (o : cop) : option fn :=
  match o with
  | CBlock max => Some (new_block f max)
  | CEntry => unpack f 0
  | CInit b seal => init_with_phis f b seal
  | CReg b w => opt k <- f_file f b; do_rop f (to_rop k w)
  | CCall b => do_call f b
  | CRet b => do_ret f b
  | CBr b t => branch_to f b t
  | CCond b t o => cond_branch_to f b t o
  end.

(** ** OptimizePacks *)

(** regfile.h:117-125 RegisterSet, as a bit mask. *)
Definition all_regs : list areg :=
  map (fun i => FLAG (Z.of_nat i)) (seq 0 7) ++ map (fun i => GP (Z.of_nat i)) (seq 0 32) ++ map (fun i => VEC (Z.of_nat i)) (seq 0 32).
Definition dirty_mask (h : rfs) (k : nat) : Z :=
  fold_right (fun r m => if h_dirty h k r then Z.setbit m (bit_idx r) else m) 0 all_regs.
(** regfile.cc:246 StartsClean. *)
Definition starts_clean (h : rfs) (k : nat) : bool := match h_init h k with InitNone => true | _ => false end.

(** callconv.cc:264 bb_map: dirty registers at the beginning and at the end. *)
Definition flowmap := nat -> option (Z * Z).
Definition fl_in (m : flowmap) (b : nat) : Z := match m b with Some (x, _) => x | None => 0 end.
Definition fl_out (m : flowmap) (b : nat) : Z := match m b with Some (_, x) => x | None => 0 end.
(** callconv.cc:275-285. *)
Definition flow_pre (f : fn) (m : flowmap) (b : nat) : Z :=
  fold_left (fun x p => Z.lor x (fl_out m p)) (f_preds f b) 0.
Definition flow_post (f : fn) (pre : Z) (b : nat) : Z :=
  match f_file f b with
  | Some k => if starts_clean (f_h f) k then dirty_mask (f_h f) k else Z.lor pre (dirty_mask (f_h f) k)
  | None => 0
  end.
Definition memn (x : nat) (l : list nat) : bool := existsb (Nat.eqb x) l.
(** callconv.cc:292-296: [q] is what remains of the current vector. *)
Definition enqueue (q new : list nat) (succs : list nat) : list nat :=
  fold_left (fun nw s => if memn s q || memn s nw then nw else nw ++ [s]) succs new.
(** callconv.cc:268-304: [cur] is queue_vec from the current element on, [new] is
    new_queue_vec; the set queue is their union. *)
Fixpoint flow (fuel : nat) (f : fn) (cur new : list nat) (m : flowmap) : option flowmap :=
  match fuel with
  | O => None
  | S fuel =>
    match cur with
    | [] => match new with [] => Some m | _ => flow fuel f new [] m end
    | b :: q =>
      let pre := flow_pre f m b in
      let post := flow_post f pre b in
      let changed := match m b with None => true | Some (_, x) => negb (x =? post) end in
      flow fuel f q (if changed then enqueue q new (f_succs f b) else new) (updn m b (Some (pre, post)))
    end
  end.

(** callconv.cc:324-346: the block and register file whose end is the place of the
    store of [r], starting at file [k] of block [b]. *)
Fixpoint hoist (fuel : nat) (f : fn) (m : flowmap) (b k : nat) (r : areg) : option (nat * nat) :=
  match fuel with
  | O => None
  | S fuel =>
    if starts_clean (f_h f) k || Z.testbit (dirty_mask (f_h f) k) (bit_idx r) then Some (b, k)
    else match filter (fun p => Z.testbit (fl_out m p) (bit_idx r)) (f_preds f b) with
         | [p] => match f_succs f p with
                  | [_] => match f_file f p with Some k' => hoist fuel f m p k' r | None => None end
                  | _ => Some (b, k)
                  end
         | _ => Some (b, k)
         end
  end.

Definition with_h (f : fn) (h : rfs) : fn :=
  Fn (f_n f) h (f_nb f) (f_max f) (f_file f) (f_preds f) (f_succs f) (f_packs f) (f_first f) (f_bb f) (f_log f).

(** A store of a register into its slot, before the call, return or branch that
    ends the code belonging to register file [fst (fst st)]. *)
Definition store := (nat * areg * value)%type.

(** llvm::isa<UndefValue>, callconv.cc:349. *)
Variable is_undef : value -> bool.

(** callconv.cc:310-357 for one entry of the CPU struct. (The register's native
    type is requested, so the caching decision of GetReg plays no role.) *)
Definition pack_reg (fuel : nat) (m : flowmap) (p : pack) (f : fn) (rf : areg * facet) : option (fn * list store) :=
  let '(r, fc) := rf in
  let regset := Z.lor (dirty_mask (f_h f) (pk_file p))
                      (if starts_clean (f_h f) (pk_file p) then 0 else fl_in m (pk_bb p)) in
  if Z.testbit regset (bit_idx r) then
    opt (_, k) <- hoist fuel f m (pk_bb p) (pk_file p) r;
    opt (h, v) <- get_reg A false (f_h f) k r fc;
    Some (with_h f h, if is_undef v then [] else [(k, r, v)])
  else Some (f, []).
Fixpoint pack_regs (fuel : nat) (m : flowmap) (p : pack) (f : fn) (l : list (areg * facet)) : option (fn * list store) :=
  match l with
  | [] => Some (f, [])
  | rf :: l' => opt (f, s1) <- pack_reg fuel m p f rf; opt (f, s2) <- pack_regs fuel m p f l'; Some (f, s1 ++ s2)
  end.
Fixpoint pack_all (fuel : nat) (m : flowmap) (f : fn) (l : list pack) : option (fn * list store) :=
  match l with
  | [] => Some (f, [])
  | p :: l' => opt (f, s1) <- pack_regs fuel m p f (reg_slots A); opt (f, s2) <- pack_all fuel m f l'; Some (f, s1 ++ s2)
  end.
(** callconv.cc:262-359 OptimizePacks. The store of the PC (314) is not modelled here. *)
Definition optimize_packs (fuel : nat) (f : fn) : option (fn * list store) :=
  opt m <- flow fuel f [0%nat] [] (fun _ => None);
  pack_all fuel m f (f_packs f).

(** ** PHI nodes *)

(** A filled PHI node: block, register, incoming (predecessor, value). *)
Definition phi := (nat * areg * list (nat * value))%type.
(** basicblock.cc:107-113 for one PHI node; replaceAllUsesWith for a single
    predecessor is left out: the node then has just that one value. *)
Fixpoint fill_incoming (f : fn) (r : areg) (preds : list nat) : option (fn * list (nat * value)) :=
  match preds with
  | [] => Some (f, [])
  | p :: l =>
    opt k <- f_file f p;
    opt (h, v) <- get_reg A false (f_h f) k r (native_facet A r);
    opt (f, inc) <- fill_incoming (with_h f h) r l;
    Some (f, (p, v) :: inc)
  end.
Definition block_phis (f : fn) (b : nat) : list areg := map snd (filter (fun x => Nat.eqb (fst x) b) (h_phis (f_h f))).
(** basicblock.cc:106-114. A PHI node requested in the block whose list is being
    iterated over would invalidate the iterators, and be dropped by clear() (115):
    [None]. *)
Fixpoint fill_regs (f : fn) (b : nat) (l : list areg) : option (fn * list phi) :=
  match l with
  | [] => Some (f, [])
  | r :: l' =>
    opt (f', inc) <- fill_incoming f r (f_preds f b);
    if Nat.eqb (length (block_phis f' b)) (length (block_phis f b)) then
      opt (f'', ps) <- fill_regs f' b l'; Some (f'', (b, r, inc) :: ps)
    else None
  end.
(** basicblock.cc:101-118 FillPhis; [filled] counts the PHI nodes of each block that
    have been filled. *)
Definition fill_phis (f : fn) (filled : nat -> nat) (b : nat) : option (fn * (nat -> nat) * list phi * bool) :=
  if (match f_max f b with Some m => Nat.leb (length (f_preds f b)) m | None => true end) then
    let l := skipn (filled b) (block_phis f b) in
    opt (f, ps) <- fill_regs f b l;
    Some (f, updn filled b (length (block_phis f b)), ps, match l with [] => false | _ => true end)
  else None.
(** function.cc:226-231: one iteration over the blocks. *)
Fixpoint fill_round (f : fn) (filled : nat -> nat) (ord : list nat) : option (fn * (nat -> nat) * list phi * bool) :=
  match ord with
  | [] => Some (f, filled, [], false)
  | b :: l => opt (f, filled, p1, c1) <- fill_phis f filled b;
              opt (f, filled, p2, c2) <- fill_round f filled l;
              Some (f, filled, p1 ++ p2, c1 || c2)
  end.
(** function.cc:224-231. [ord] is the iteration order of block_map (a hash table)
    followed by the exit block. *)
Fixpoint fill_loop (fuel : nat) (f : fn) (filled : nat -> nat) (ord : list nat) : option (fn * list phi) :=
  match fuel with
  | O => None
  | S fuel => opt (f, filled, ps, c) <- fill_round f filled ord;
              if c then opt (f, qs) <- fill_loop fuel f filled ord; Some (f, ps ++ qs) else Some (f, ps)
  end.

(** The finished function: blocks, stores, PHI nodes; [l_early] are the loads
    emitted before OptimizePacks. *)
Record lifted := Lifted { l_fn : fn; l_early : list (nat * areg); l_stores : list store; l_phis : list phi }.
(** function.cc:219-231. *)
Definition finish (fuel : nat) (f : fn) (ord : list nat) : option lifted :=
  opt (f1, ss) <- optimize_packs fuel f;
  opt (f2, ps) <- fill_loop fuel f1 (fun _ => O) ord;
  Some (Lifted f2 (h_loads (f_h f)) ss ps).

End Arch.
