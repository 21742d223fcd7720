(** The register file: model of /repo/src/regfile.cc.

    Values are typed IR expressions over atoms (PHI nodes, results of earlier
    instructions, loads from the CPU struct). Everything the register file
    itself creates is a pure expression, so no insertion point is tracked,
    except that the loads of Transform::Load are separate atoms (Packs.v shows
    that the slot still holds the value from the unpack when they execute).
    A [None] result stands for a failed assertion or ill-typed IR. *)

From Coq Require Import ZArith Lia ZifyBool List Bool.
From Verif Require Import Bits IR Facet Dsl.
Import ListNotations.
Open Scope Z_scope.

Notation "'opt' x <- e1 ; e2" := (match e1 with Some x => e2 | None => None end)
  (at level 200, x pattern, right associativity).

(** ** Model *)

(** llvm::Value leaves. [AVar n t]: an instruction created by a lifter;
    [APhi b r]: the PHI node that regfile.cc:350-354 creates for register [r] in
    block [b]; [ASlot u r t]: the load of register [r]'s CPU struct slot created
    by regfile.cc:176-177 for the unpack event [u] (one event per
    callconv.cc:195-217 Unpack, i.e. per function entry and per returning call). *)
Inductive atom := AVar (n : nat) (t : ty) | APhi (b : nat) (r : areg) | ASlot (u : nat) (r : areg) (t : ty).

(** llvm::Value with its type. *)
Record value := Val { v_ty : ty; v_e : exp atom }.

(** regfile.cc:64-70 valueSize. *)
Definition value_size (v : value) : Z := tsize (v_ty v).

(** regfile.cc:77-98 Register::Value. *)
Record piece := Piece { p_a : value; p_b : option value; p_size : Z; p_dirty : bool }.
Definition new_piece (v : value) (size : Z) : piece := Piece v None size true.

(** regfile.cc:72-143 Register. A register with a pending transformation
    (transform != None, which stores its operands in values[0].valueA,
    values[0].valueB and values[1].valueA, regfile.cc:139-142) is a separate
    constructor (operands the transformation ignores, null in the code, are
    arbitrary values here); [RLoad] is Transform::Load with its unpack
    event and load type. *)
Inductive regst :=
| RLazy (tr : transform) (v1 v2 v3 : value)
| RLoad (u : nat) (t : ty)
| RVals (uz : bool) (vs : list piece).

(** regfile.cc:219-225: how a register file was initialised. *)
Inductive rinit := InitNone | InitParent (p : nat) | InitPhi (b : nat).

(** The register files of a function under construction, numbered in order of
    creation (regfile.cc:193-294 RegFile::impl without the PC); [h_phis] collects
    PhiDesc entries (regfile.cc:354), [h_loads] the loads that were emitted. *)
Record rfs := Rfs {
  h_reg : nat -> areg -> regst;
  h_init : nat -> rinit;
  h_dirty : nat -> areg -> bool;
  h_phis : list (nat * areg);
  h_loads : list (nat * areg);
}.

Definition set_reg (h : rfs) (k : nat) (r : areg) (g : regst) : rfs :=
  Rfs (fun k' r' => if Nat.eqb k k' && areg_eqb r r' then g else h_reg h k' r')
      (h_init h) (h_dirty h) (h_phis h) (h_loads h).
Definition set_dirty (h : rfs) (k : nat) (r : areg) : rfs :=
  Rfs (h_reg h) (h_init h) (fun k' r' => if Nat.eqb k k' && areg_eqb r r' then true else h_dirty h k' r')
      (h_phis h) (h_loads h).
Definition add_phi (h : rfs) (b : nat) (r : areg) : rfs :=
  Rfs (h_reg h) (h_init h) (h_dirty h) (h_phis h ++ [(b, r)]) (h_loads h).
Definition add_load (h : rfs) (u : nat) (r : areg) : rfs :=
  Rfs (h_reg h) (h_init h) (h_dirty h) (h_phis h) (h_loads h ++ [(u, r)]).

(** IRBuilder casts: the value itself if the type does not change. *)
Definition mk_cast (c : castop) (t : ty) (v : value) : option value :=
  if ty_eqb (v_ty v) t then Some v
  else match cast_fun c (v_ty v) t with Some _ => Some (Val t (E1 (OCast c t) (v_e v))) | None => None end.

(** regfile.cc:145-189 canonicalize, value part. *)
Definition canon_value (r : areg) (g : regst) : option (value * Z) :=
  match g with
  | RLazy tr v1 v2 v3 =>
    match tr with
    | TruncI8 => opt v <- mk_cast CTrunc (TInt 8) v1; Some (v, 8)
    | _ => Some (Val (TInt 1) (transform_exp tr (v_ty v1) (v_e v1) (v_e v2) (v_e v3)), 1)
    end
  | RLoad u t => Some (Val t (ELeaf (ASlot u r t)), tsize t)
  | RVals _ _ => None
  end.
(** regfile.cc:145-189 canonicalize. *)
Definition canonicalize (h : rfs) (k : nat) (r : areg) : option rfs :=
  match h_reg h k r with
  | RVals _ _ => Some h
  | RLoad u t => Some (set_reg (add_load h u r) k r (RVals true [new_piece (Val t (ELeaf (ASlot u r t))) (tsize t)]))
  | g => opt (v, s) <- canon_value r g; Some (set_reg h k r (RVals true [new_piece v s]))
  end.

(** regfile.cc:374-383: index of the last value that is at least [full] bits
    wide, or [None] if a smaller value is dirty (goto fold). *)
Fixpoint fold_idx (vs : list piece) (full : Z) (i start : nat) : option nat :=
  match vs with
  | [] => Some start
  | p :: vs' => if full <=? p_size p then fold_idx vs' full (S i) i
                else if p_dirty p then None else fold_idx vs' full (S i) start
  end.

(** regfile.cc:394-405: fold into an integer. *)
Fixpoint fold_int (w : Z) (res : value) (vs : list piece) : option value :=
  match vs with
  | [] => Some res
  | p :: vs' =>
    if p_dirty p then
      opt v <- mk_cast CBitCast (TInt (p_size p)) (p_a p);
      opt v <- mk_cast CZExt (TInt w) v;
      let mask := EConst (TInt w) (Z.ones w - Z.ones (p_size p)) in
      fold_int w (Val (TInt w) (eOr (eAnd (v_e res) mask) (v_e v))) vs'
    else fold_int w res vs'
  end.

Definition seqZ (n : Z) : list Z := map Z.of_nat (seq 0 (Z.to_nat n)).

(** regfile.cc:406-438: fold into a vector of [rs] bits. *)
Definition fold_vec1 (rs : Z) (res : value) (p : piece) : option value :=
  match v_ty (p_a p) with
  | TVec vc et =>
    let rc := rs / tsize et in
    let ext := Val (TVec rc et)
      (E2 (OShuf (map (fun j => if j <? vc then j else vc) (seqZ rc))) (v_e (p_a p)) (EConst (TVec vc et) 0)) in
    opt res <- mk_cast CBitCast (TVec rc et) res;
    Some (Val (TVec rc et) (E2 (OShuf (map (fun j => j + (if j <? vc then 0 else rc)) (seqZ rc))) (v_e ext) (v_e res)))
  | t =>
    let cnt := rs / p_size p in
    opt res <- mk_cast CBitCast (TVec cnt t) res;
    Some (Val (TVec cnt t) (E2 (OInsert 0) (v_e res) (v_e (p_a p))))
  end.
Fixpoint fold_vec (rs : Z) (res : value) (vs : list piece) : option value :=
  match vs with
  | [] => Some res
  | p :: vs' => if p_dirty p then opt res <- fold_vec1 rs res p; fold_vec rs res vs' else fold_vec rs res vs'
  end.
(** regfile.cc:440-451: zero-extend a vector. *)
Definition vec_extend (fs : Z) (res : value) : option value :=
  match v_ty res with
  | TVec n et =>
    if tsize (v_ty res) <? fs then
      let cnt := fs / tsize et in
      Some (Val (TVec cnt et) (E2 (OShuf (map (fun j => if j <? n then j else n) (seqZ cnt))) (v_e res) (EConst (TVec n et) 0)))
    else Some res
  | _ => None
  end.

(** regfile.cc:385-462 from the label fold. *)
Definition fold_values (vs : list piece) (full : Z) : option (list piece) :=
  match vs with
  | [] => None
  | p0 :: rest =>
    let fs := if full <? p_size p0 then p_size p0 else full in
    let t0 := v_ty (p_a p0) in
    opt r0 <- (if is_ptr t0 || is_fp t0 then mk_cast CBitOrPtr (TInt (p_size p0)) (p_a p0) else Some (p_a p0));
    opt res <- (if is_int (v_ty r0) then
                  opt r1 <- mk_cast CZExtOrTrunc (TInt fs) r0; fold_int fs r1 rest
                else if is_vec (v_ty r0) then
                  opt r1 <- fold_vec (tsize (v_ty r0)) r0 rest; vec_extend fs r1
                else None);
    Some [new_piece res fs]
  end.

(** regfile.cc:343-347: values of the parent at least as large as our first. *)
Fixpoint take_ge (vs : list piece) (s : Z) : list piece :=
  match vs with
  | [] => []
  | p :: vs' => if p_size p <? s then [] else p :: take_ge vs' s
  end.

Section Arch.
Variable A : arch.
Notation nfacet := (native_facet A).
Notation nsize := (native_size A).

(** regfile.cc:330-463 GetRegFold: updates the register in file [k] (and its
    ancestors) and returns the index into its values. *)
Fixpoint get_fold (fuel : nat) (h : rfs) (k : nat) (r : areg) (full : Z) : option (rfs * nat) :=
  match fuel with
  | O => None
  | S fuel' =>
    opt h <- canonicalize h k r;
    match h_reg h k r with
    | RVals uz vs =>
      opt h <- (if negb uz && (match vs with [] => true | p :: _ => p_size p <? full end) then
                  match h_init h k with
                  | InitParent p =>
                    opt (h, _) <- get_fold fuel' h p r (nsize r);
                    match h_reg h p r with
                    | RVals uz' vs' =>
                      Some (set_reg h k r (RVals uz'
                        (match vs with [] => vs' | q :: _ => take_ge vs' (p_size q) ++ vs end)))
                    | _ => None
                    end
                  | InitPhi b =>
                    let phi := Val (facet_type (nfacet r)) (ELeaf (APhi b r)) in
                    Some (set_reg (add_phi h b r) k r (RVals uz (Piece phi None (nsize r) false :: vs)))
                  | InitNone => None
                  end
                else Some h);
      match h_reg h k r with
      | RVals uz vs =>
        match vs, uz with
        | [], true => Some (set_reg h k r (RVals uz [new_piece (Val (TInt full) (EConst (TInt full) 0)) full]), O)
        | [], false => None
        | p0 :: _, _ =>
          if uz && negb (p_dirty p0) then None else
          match fold_idx vs full 0 0 with
          | Some i => Some (h, i)
          | None => opt vs' <- fold_values vs full; Some (set_reg h k r (RVals uz vs'), O)
          end
        end
      | _ => None
      end
    | _ => None
    end
  end.

(** regfile.cc:483-556: conversion of [sup] (of [size] bits) to facet [f]. *)
Definition convert (f : facet) (sup : value) (size : Z) : option value :=
  let fs := facet_size f in
  let ft := facet_type f in
  match f with
  | I128 | I64 | I32 | I16 | I8 | F64 | F32 =>
    if is_vec (v_ty sup) then
      let cnt := tsize (v_ty sup) / tsize ft in
      if cnt =? 1 then mk_cast CBitCast ft sup
      else opt v <- mk_cast CBitCast (TVec cnt ft) sup; Some (Val ft (E1 (OExtract 0) (v_e v)))
    else
      opt v <- (if is_int (v_ty sup) then Some sup else mk_cast CBitOrPtr (TInt size) sup);
      opt v <- (if fs <? size then mk_cast CTrunc (TInt fs) v else Some v);
      mk_cast CBitOrPtr ft v
  | I8H =>
    if is_int (v_ty sup) then
      mk_cast CTrunc (TInt 8) (Val (v_ty sup) (eLShr (v_e sup) (EConst (v_ty sup) 8)))
    else None
  | _ =>
    match ft with
    | TVec tc et =>
      let nc := tsize (v_ty sup) / tsize et in
      opt v <- mk_cast CBitCast (TVec nc et) sup;
      if tc <? nc then Some (Val (TVec tc et) (E2 (OShuf (seqZ tc)) (v_e v) (EUndef (TVec nc et)))) else Some v
    | _ => None
    end
  end.

(** Change (regfile.cc:465-567) and insertion (regfile.cc:562) of an element of [values]. *)
Definition list_set {T} (l : list T) (i : nat) (x : T) : list T := firstn i l ++ x :: skipn (S i) l.
Definition list_ins {T} (l : list T) (i : nat) (x : T) : list T := firstn i l ++ x :: skipn i l.

(** regfile.cc:465-567 GetReg. [cache] is the outcome of the capacity test in
    regfile.cc:559, which depends on the allocation history of a SmallVector. *)
Definition get_reg (cache : bool) (h : rfs) (k : nat) (r : areg) (f : facet) : option (rfs * value) :=
  let fs := match f with I8H => 16 | _ => facet_size f end in
  let ft := facet_type f in
  opt (h, i) <- get_fold (S k) h k r fs;
  match h_reg h k r with
  | RVals uz vs =>
    opt p <- nth_error vs i;
    if negb (facet_eqb f I8H) && (p_size p =? fs) then
      if ty_eqb (v_ty (p_a p)) ft then Some (h, p_a p)
      else match p_b p with
           | Some vb =>
             if ty_eqb (v_ty vb) ft then Some (h, vb)
             else opt v <- mk_cast CBitOrPtr ft (p_a p);
                  Some (set_reg h k r (RVals uz (list_set vs i (Piece v (Some (p_a p)) (p_size p) (p_dirty p)))), v)
           | None =>
             opt v <- mk_cast CBitOrPtr ft (p_a p);
             Some (set_reg h k r (RVals uz (list_set vs i (Piece v (Some (p_a p)) (p_size p) (p_dirty p)))), v)
           end
    else
      opt v <- convert f (p_a p) (p_size p);
      if facet_eqb f I8H then Some (h, v)
      else if cache then
        if match nth_error vs (S i) with Some q => p_size q <? fs | None => true end
        then Some (set_reg h k r (RVals uz (list_ins vs (S i) (Piece v None fs false))), v)
        else None
      else Some (h, v)
  | _ => None
  end.

(** regfile.cc:569-573 Set. *)
Definition set_full (h : rfs) (k : nat) (r : areg) (v : value) : rfs :=
  set_dirty (set_reg h k r (RVals true [new_piece v (value_size v)])) k r.

(** regfile.cc:592-596 Set(Transform). *)
Definition set_lazy (h : rfs) (k : nat) (r : areg) (tr : transform) (v1 v2 v3 : value) : rfs :=
  set_dirty (set_reg h k r (RLazy tr v1 v2 v3)) k r.

(** regfile.cc:579-586: keep the values larger than [s]. *)
Fixpoint take_gt (vs : list piece) (s : Z) : list piece :=
  match vs with
  | [] => []
  | p :: vs' => if p_size p <=? s then [] else p :: take_gt vs' s
  end.
(** regfile.cc:575-590 Merge. *)
Definition merge (h : rfs) (k : nat) (r : areg) (v : value) : option rfs :=
  opt h <- canonicalize h k r;
  match h_reg h k r with
  | RVals uz vs =>
    let s := value_size v in
    Some (set_dirty (set_reg h k r (RVals uz (take_gt vs s ++ [new_piece v s]))) k r)
  | _ => None
  end.
End Arch.
