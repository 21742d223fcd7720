(** Semantics of the LLVM-IR fragment that the lifter emits.

    Nothing in this file models code of /repo; it is our reading of the LLVM
    LangRef for the IR instructions created through [irb.CreateX] in
    /repo/src/**. Modelling decisions:
    - a first-class value is a bit pattern together with its type; pointers are
      64-bit patterns (no provenance), floats are their IEEE bit patterns;
    - [Poison] is a separate value; [undef] (llvm::UndefValue) is treated as
      poison, which is more undefined than undef;
    - poison of a vector is tracked for the whole vector, not per lane (more
      poison than LLVM has);
    - immediate undefined behaviour ([UB]) and ill-typed IR that the verifier
      rejects or that asserts in the IRBuilder ([TyErr]) are distinct outcomes;
    - floating-point operations are uninterpreted ([FpuOps]). *)

From Coq Require Import ZArith Lia List Bool.
From Verif Require Import Bits.
Import ListNotations.
Open Scope Z_scope.

(** LLVM types used by the lifter. *)
Inductive ty :=
| TInt (w : Z)
| TPtr
| TF32
| TF64
| TVec (n : Z) (t : ty).

Fixpoint ty_eqb (a b : ty) : bool :=
  match a, b with
  | TInt w, TInt w' => w =? w'
  | TPtr, TPtr | TF32, TF32 | TF64, TF64 => true
  | TVec n t, TVec n' t' => (n =? n') && ty_eqb t t'
  | _, _ => false
  end.

Lemma ty_eqb_eq : forall a b, ty_eqb a b = true <-> a = b.
Proof.
  induction a; destruct b; simpl; split; intro H; try reflexivity; try discriminate; try congruence.
  - apply Z.eqb_eq in H. congruence.
  - inversion H. apply Z.eqb_refl.
  - apply andb_prop in H. destruct H as [H1 H2]. apply Z.eqb_eq in H1. apply IHa in H2. congruence.
  - inversion H; subst. rewrite Z.eqb_refl. simpl. apply IHa. reflexivity.
Qed.

Lemma ty_eqb_refl : forall a, ty_eqb a a = true.
Proof. intros. apply ty_eqb_eq. reflexivity. Qed.

(** Size in bits (llvm::Type::getPrimitiveSizeInBits, pointers counted as 64). *)
Fixpoint tsize (t : ty) : Z :=
  match t with
  | TInt w => w
  | TPtr => 64
  | TF32 => 32
  | TF64 => 64
  | TVec n t => n * tsize t
  end.

Definition is_ptr (t : ty) : bool := match t with TPtr => true | _ => false end.
Definition is_int (t : ty) : bool := match t with TInt _ => true | _ => false end.
Definition is_vec (t : ty) : bool := match t with TVec _ _ => true | _ => false end.
Definition is_fp (t : ty) : bool := match t with TF32 | TF64 => true | _ => false end.

(** Run-time values. *)
Inductive rv :=
| V (t : ty) (z : Z)
| Poison (t : ty).

Definition ty_of (x : rv) : ty := match x with V t _ => t | Poison t => t end.

(** A value is well formed if its pattern fits its type. *)
Definition wf_rv (x : rv) : Prop := match x with V t z => inr (tsize t) z | Poison _ => True end.

(** Outcomes. *)
Inductive res (A : Type) :=
| Ok (a : A)
| UB
| TyErr.
Arguments Ok {A} _.
Arguments UB {A}.
Arguments TyErr {A}.

Definition bind {A B} (x : res A) (f : A -> res B) : res B :=
  match x with Ok a => f a | UB => UB | TyErr => TyErr end.
Notation "'do' x <- e1 ; e2" := (bind e1 (fun x => e2)) (at level 200, x pattern, right associativity).

(** Scalar operation results: value, poison, immediate UB. *)
Inductive ires := IV (z : Z) | IP | IU.

Inductive binop := Add | Sub | Mul | UDiv | SDiv | URem | SRem | Shl | LShr | AShr | And | Or | Xor.

Definition is_div (op : binop) : bool :=
  match op with UDiv | SDiv | URem | SRem => true | _ => false end.

(** LangRef "Binary Operations" and "Bitwise Binary Operations", without
    nuw/nsw/exact flags (the lifter sets none on integer operations). *)
Definition ibin (op : binop) (w a b : Z) : ires :=
  match op with
  | Add => IV (trunc w (a + b))
  | Sub => IV (trunc w (a - b))
  | Mul => IV (trunc w (a * b))
  | UDiv => if b =? 0 then IU else IV (a / b)
  | URem => if b =? 0 then IU else IV (a mod b)
  | SDiv => if b =? 0 then IU
            else if (sgn w a =? - 2^(w-1)) && (sgn w b =? -1) then IU
            else IV (trunc w (Z.quot (sgn w a) (sgn w b)))
  | SRem => if b =? 0 then IU
            else if (sgn w a =? - 2^(w-1)) && (sgn w b =? -1) then IU
            else IV (trunc w (Z.rem (sgn w a) (sgn w b)))
  | Shl => if b <? w then IV (trunc w (Z.shiftl a b)) else IP
  | LShr => if b <? w then IV (Z.shiftr a b) else IP
  | AShr => if b <? w then IV (trunc w (Z.shiftr (sgn w a) b)) else IP
  | And => IV (Z.land a b)
  | Or => IV (Z.lor a b)
  | Xor => IV (Z.lxor a b)
  end.

Inductive icmp := EQ | NE | UGT | UGE | ULT | ULE | SGT | SGE | SLT | SLE.

Definition icmp_sem (p : icmp) (w a b : Z) : bool :=
  match p with
  | EQ => a =? b
  | NE => negb (a =? b)
  | UGT => b <? a
  | UGE => b <=? a
  | ULT => a <? b
  | ULE => a <=? b
  | SGT => sgn w b <? sgn w a
  | SGE => sgn w b <=? sgn w a
  | SLT => sgn w a <? sgn w b
  | SLE => sgn w a <=? sgn w b
  end.

(** Binary integer intrinsics. *)
Inductive intr2 := SMax | SMin | UMax | UMin
| SAddSat | UAddSat | SSubSat | USubSat.

Definition clamp (lo hi z : Z) : Z := if z <? lo then lo else if hi <? z then hi else z.

Definition intr2_sem (i : intr2) (w a b : Z) : Z :=
  match i with
  | SMax => if sgn w a <? sgn w b then b else a
  | SMin => if sgn w b <? sgn w a then b else a
  | UMax => if a <? b then b else a
  | UMin => if b <? a then b else a
  | SAddSat => trunc w (clamp (- 2^(w-1)) (2^(w-1) - 1) (sgn w a + sgn w b))
  | SSubSat => trunc w (clamp (- 2^(w-1)) (2^(w-1) - 1) (sgn w a - sgn w b))
  | UAddSat => clamp 0 (2^w - 1) (a + b)
  | USubSat => clamp 0 (2^w - 1) (a - b)
  end.

(** Overflow part of the *.with.overflow intrinsics. *)
Inductive ovop := SAddOv | SSubOv | SMulOv | UMulOv.
Definition ov_sem (o : ovop) (w a b : Z) : bool :=
  let out s := negb ((- 2^(w-1) <=? s) && (s <? 2^(w-1))) in
  match o with
  | SAddOv => out (sgn w a + sgn w b)
  | SSubOv => out (sgn w a - sgn w b)
  | SMulOv => out (sgn w a * sgn w b)
  | UMulOv => 2^w <=? a * b
  end.

(** Unary integer intrinsics. *)
Inductive intr1 :=
| Ctpop
| Ctlz (zero_poison : bool)
| Cttz (zero_poison : bool)
| Bswap
| Bitreverse
| Abs (min_poison : bool).

(** Index of the least significant set bit below [n]; [n] if there is none. *)
Fixpoint cttz_from (z : Z) (i : Z) (n : nat) : Z :=
  match n with
  | O => i
  | S n' => if Z.testbit z i then i else cttz_from z (i + 1) n'
  end.
Fixpoint bitrev_nat (z w : Z) (n : nat) : Z :=
  match n with
  | O => 0
  | S n' => b2z (Z.testbit z (Z.of_nat n')) * 2^(w - 1 - Z.of_nat n') + bitrev_nat z w n'
  end.
Definition bswap_sem (w z : Z) : Z := unlanes 8 (rev (lanes (w / 8) 8 z)).

Definition intr1_sem (i : intr1) (w a : Z) : ires :=
  match i with
  | Ctpop => IV (popcount w a)
  | Ctlz zp => if a =? 0 then (if zp then IP else IV w) else IV (w - 1 - Z.log2 a)
  | Cttz zp => if a =? 0 then (if zp then IP else IV w) else IV (cttz_from a 0 (Z.to_nat w))
  | Bswap => IV (bswap_sem w a)
  | Bitreverse => IV (bitrev_nat a w (Z.to_nat w))
  | Abs mp => if a =? 2^(w-1) then (if mp then IP else IV a) else IV (Z.abs (sgn w a))
  end.

(** Funnel shifts. *)
Definition fsh_sem (left : bool) (w a b s : Z) : Z :=
  let c := a * 2^w + b in
  let k := s mod w in
  if left then trunc w (Z.shiftr (Z.shiftl c k) w) else trunc w (Z.shiftr c k).

(** Uninterpreted floating point. The arguments are element patterns; [None]
    stands for poison (e.g. fptosi out of range). *)
Inductive fpname :=
| FAdd | FSub | FMul | FDiv | FNeg | FSqrt | FMinnum | FMaxnum | FFloor | FCeil | FRound
| FRint | FTruncI | FFabs | FFma | FExt | FTrunc | FSIToFP | FUIToFP | FToSI | FToUI | FToSISat | FToUISat
| FCmp (p : Z).
Class FpuOps := fpu_op : fpname -> ty -> ty -> list Z -> option Z.

(** Casts. [BitOrPtr] is IRBuilder::CreateBitOrPointerCast. *)
Inductive castop := CTrunc | CZExt | CSExt | CZExtOrTrunc | CBitCast | CPtrToInt | CIntToPtr | CBitOrPtr.

Inductive op1 :=
| OCast (c : castop) (t : ty)
| OIntr1 (i : intr1)
| OExtract (idx : Z)                (* extractelement, constant index *)
| OSplat (n : Z)                    (* IRBuilder::CreateVectorSplat *)
| OFp1 (n : fpname) (t : ty).       (* element-wise, result type t *)
Inductive op2 :=
| OBin (b : binop)
| OCmp (p : icmp)
| OIntr2 (i : intr2)
| OOv (o : ovop)
| OGep                              (* getelementptr i8, ptr, i64 *)
| OInsert (idx : Z)                 (* insertelement, constant index *)
| OShuf (mask : list Z)             (* shufflevector; -1 is a poison lane *)
| OFp2 (n : fpname) (t : ty).
Inductive op3 :=
| OSel
| OFsh (left : bool)
| OFp3 (n : fpname) (t : ty).

(** Expressions over leaves of type [L]. [EIf] is a two-armed control-flow
    diamond whose result is the PHI of the arms. *)
Inductive exp (L : Type) :=
| ELeaf (l : L)
| EConst (t : ty) (z : Z)
| EUndef (t : ty)
| E1 (o : op1) (a : exp L)
| E2 (o : op2) (a b : exp L)
| E3 (o : op3) (a b c : exp L)
| EIf (c a b : exp L).
Arguments ELeaf {L} _.
Arguments EConst {L} _ _.
Arguments EUndef {L} _.
Arguments E1 {L} _ _.
Arguments E2 {L} _ _ _.
Arguments E3 {L} _ _ _ _.
Arguments EIf {L} _ _ _.

Definition of_ires (t : ty) (r : ires) : res rv :=
  match r with IV z => Ok (V t z) | IP => Ok (Poison t) | IU => UB end.

(** Element-wise evaluation of vectors: UB if a lane is UB, else poison if a
    lane is poison. *)
Fixpoint seq_ires (l : list ires) : res (option (list Z)) :=
  match l with
  | nil => Ok (Some nil)
  | x :: l' =>
    match x, seq_ires l' with
    | IU, _ => UB
    | _, UB => UB
    | _, TyErr => TyErr
    | IV z, Ok (Some zs) => Ok (Some (z :: zs))
    | _, Ok _ => Ok None
    end
  end.

Definition of_lanes (t : ty) (w : Z) (r : res (option (list Z))) : res rv :=
  match r with
  | Ok (Some zs) => Ok (V t (unlanes w zs))
  | Ok None => Ok (Poison t)
  | UB => UB
  | TyErr => TyErr
  end.

(** Lane-wise operations on vectors (LangRef, vector type). *)
Definition vec1 (n w w' : Z) (t : ty) (f : Z -> ires) (a : Z) : res rv :=
  of_lanes t w' (seq_ires (map f (lanes n w a))).
Definition map2 {A B C} (f : A -> B -> C) (l : list A) (m : list B) : list C :=
  map (fun p => f (fst p) (snd p)) (combine l m).
Definition vec2 (n w w' : Z) (t : ty) (f : Z -> Z -> ires) (a b : Z) : res rv :=
  of_lanes t w' (seq_ires (map2 f (lanes n w a) (lanes n w b))).
Definition vec3 (n w w' : Z) (t : ty) (f : Z -> Z -> Z -> ires) (a b c : Z) : res rv :=
  of_lanes t w' (seq_ires (map2 (fun x yz => f x (fst yz) (snd yz)) (lanes n w a) (combine (lanes n w b) (lanes n w c)))).

(** The integer shape of a type: scalar integer/pointer, or vector of integers. *)
Inductive shape := ShScalar (w : Z) | ShVec (n w : Z) | ShNone.
Definition int_shape (t : ty) : shape :=
  match t with TInt w => ShScalar w | TVec n (TInt w) => ShVec n w | _ => ShNone end.

(** Operand-pair wrapper: both operands must have the same type. *)
Definition same2 (x y : rv) (k : ty -> Z -> Z -> res rv) (p : ty -> res rv) : res rv :=
  if ty_eqb (ty_of x) (ty_of y) then
    match x, y with
    | V t a, V _ b => k t a b
    | _, _ => p (ty_of x)
    end
  else TyErr.

(** Integer arithmetic. A division with any poison operand is undefined behaviour here;
    in the LangRef only a poison divisor is (a poison dividend gives poison), so this
    model is stricter: absence of undefined behaviour here implies it there. *)
Definition bin_sem (op : binop) (x y : rv) : res rv :=
  same2 x y
    (fun t a b => match int_shape t with
                  | ShScalar w => of_ires t (ibin op w a b)
                  | ShVec n w => vec2 n w w t (ibin op w) a b
                  | ShNone => TyErr
                  end)
    (fun t => match int_shape t with
              | ShNone => TyErr
              | _ => if is_div op then UB else Ok (Poison t)
              end).

Definition cmp_ty (t : ty) : ty := match t with TVec n _ => TVec n (TInt 1) | _ => TInt 1 end.

Definition cmp_sem (p : icmp) (x y : rv) : res rv :=
  same2 x y
    (fun t a b => match t with
                  | TInt w => Ok (V (TInt 1) (b2z (icmp_sem p w a b)))
                  | TPtr => Ok (V (TInt 1) (b2z (icmp_sem p 64 a b)))
                  | TVec n (TInt w) => vec2 n w 1 (TVec n (TInt 1)) (fun a b => IV (b2z (icmp_sem p w a b))) a b
                  | _ => TyErr
                  end)
    (fun t => match t with
              | TInt _ | TPtr | TVec _ (TInt _) => Ok (Poison (cmp_ty t))
              | _ => TyErr
              end).

(** Intrinsics with two, with overflow and with one operand. *)
Definition intr2_rv (i : intr2) (x y : rv) : res rv :=
  same2 x y
    (fun t a b => match int_shape t with
                  | ShScalar w => Ok (V t (intr2_sem i w a b))
                  | ShVec n w => vec2 n w w t (fun a b => IV (intr2_sem i w a b)) a b
                  | ShNone => TyErr
                  end)
    (fun t => match int_shape t with ShNone => TyErr | _ => Ok (Poison t) end).

Definition ov_rv (o : ovop) (x y : rv) : res rv :=
  same2 x y
    (fun t a b => match t with TInt w => Ok (V (TInt 1) (b2z (ov_sem o w a b))) | _ => TyErr end)
    (fun t => match t with TInt _ => Ok (Poison (TInt 1)) | _ => TyErr end).

Definition intr1_rv (i : intr1) (x : rv) : res rv :=
  match x with
  | V t a => match int_shape t with
             | ShScalar w => of_ires t (intr1_sem i w a)
             | ShVec n w => vec1 n w w t (intr1_sem i w) a
             | ShNone => TyErr
             end
  | Poison t => match int_shape t with ShNone => TyErr | _ => Ok (Poison t) end
  end.

(** Static check and value function of a cast from [s] to [t]; [None] if the
    cast is invalid IR. A cast to the same type is the identity
    (IRBuilder::CreateCast). *)
Definition icast (c : castop) (w w' : Z) : option (Z -> Z) :=
  match c with
  | CTrunc => if w' <=? w then Some (trunc w') else None
  | CZExt => if w <=? w' then Some (fun z => z) else None
  | CSExt => if w <=? w' then Some (sext w w') else None
  | CZExtOrTrunc => Some (trunc w')
  | _ => None
  end.
Definition cast_fun (c : castop) (s t : ty) : option (Z -> Z) :=
  if ty_eqb s t then Some (fun z => z) else
  match c with
  | CBitCast => if (tsize s =? tsize t) && negb (is_ptr s) && negb (is_ptr t) then Some (fun z => z) else None
  | CPtrToInt => match s, t with TPtr, TInt w => if w =? 64 then Some (fun z => z) else None | _, _ => None end
  | CIntToPtr => match s, t with TInt w, TPtr => if w =? 64 then Some (fun z => z) else None | _, _ => None end
  | CBitOrPtr =>
    match s, t with
    | TPtr, TInt w => if w =? 64 then Some (fun z => z) else None
    | TInt w, TPtr => if w =? 64 then Some (fun z => z) else None
    | _, _ => if (tsize s =? tsize t) && negb (is_ptr s) && negb (is_ptr t) then Some (fun z => z) else None
    end
  | _ => match s, t with
         | TInt w, TInt w' => icast c w w'
         | TVec n (TInt w), TVec n' (TInt w') =>
           if n =? n' then
             match icast c w w' with
             | Some f => Some (fun z => unlanes w' (map f (lanes n w z)))
             | None => None
             end
           else None
         | _, _ => None
         end
  end.
Definition cast_sem (c : castop) (t : ty) (x : rv) : res rv :=
  match cast_fun c (ty_of x) t with
  | None => TyErr
  | Some f => match x with V _ z => Ok (V t (f z)) | Poison _ => Ok (Poison t) end
  end.

(** extractelement, splat (CreateVectorSplat) and insertelement with constant index. *)
Definition extract_sem (i : Z) (x : rv) : res rv :=
  match ty_of x with
  | TVec n t => if (0 <=? i) && (i <? n) then
                  match x with V _ z => Ok (V t (lane (tsize t) z i)) | Poison _ => Ok (Poison t) end
                else TyErr
  | _ => TyErr
  end.
Definition splat_sem (n : Z) (x : rv) : res rv :=
  match x with
  | V t z => Ok (V (TVec n t) (unlanes (tsize t) (repeat z (Z.to_nat n))))
  | Poison t => Ok (Poison (TVec n t))
  end.

Fixpoint upd_nth {A} (i : nat) (x : A) (l : list A) : list A :=
  match l, i with
  | nil, _ => nil
  | _ :: l', O => x :: l'
  | y :: l', S i' => y :: upd_nth i' x l'
  end.

Definition insert_sem (i : Z) (x y : rv) : res rv :=
  match ty_of x with
  | TVec n t =>
    if ty_eqb t (ty_of y) && (0 <=? i) && (i <? n) then
      match x, y with
      | V _ a, V _ b => Ok (V (TVec n t) (unlanes (tsize t) (upd_nth (Z.to_nat i) b (lanes n (tsize t) a))))
      | _, _ => Ok (Poison (TVec n t))
      end
    else TyErr
  | _ => TyErr
  end.

(** shufflevector: lanes of the concatenation of both operands. A poison second
    operand is allowed as long as the mask does not select from it (the lifter
    passes undef there). *)
Definition shuf_sem (mask : list Z) (x y : rv) : res rv :=
  match ty_of x with
  | TVec n t =>
    if ty_eqb (ty_of x) (ty_of y) && forallb (fun i => (-1 <=? i) && (i <? 2 * n)) mask then
      let rt := TVec (Z.of_nat (length mask)) t in
      let w := tsize t in
      let uses_y := existsb (fun i => n <=? i) mask in
      let uses_x := existsb (fun i => (0 <=? i) && (i <? n)) mask in
      if existsb (fun i => i =? -1) mask then Ok (Poison rt) else
      match x, y with
      | V _ a, V _ b => Ok (V rt (unlanes w (map (fun i => if i <? n then lane w a i else lane w b (i - n)) mask)))
      | V _ a, Poison _ => if uses_y then Ok (Poison rt) else Ok (V rt (unlanes w (map (fun i => lane w a i) mask)))
      | Poison _, V _ b => if uses_x then Ok (Poison rt) else Ok (V rt (unlanes w (map (fun i => lane w b (i - n)) mask)))
      | _, _ => Ok (Poison rt)
      end
    else TyErr
  | _ => TyErr
  end.

Definition gep_sem (x y : rv) : res rv :=
  match x, y with
  | V TPtr a, V (TInt 64) b => Ok (V TPtr (trunc 64 (a + b)))
  | _, _ => match ty_of x, ty_of y with TPtr, TInt 64 => Ok (Poison TPtr) | _, _ => TyErr end
  end.

(** select: condition is i1, or a vector of i1 of matching length. *)
Definition sel_sem (c x y : rv) : res rv :=
  if ty_eqb (ty_of x) (ty_of y) then
    match ty_of c with
    | TInt 1 => match c with
                | V _ z => Ok (if z =? 0 then y else x)
                | Poison _ => Ok (Poison (ty_of x))
                end
    | TVec n (TInt 1) =>
      match ty_of x with
      | TVec n' t => if n =? n' then
          match c, x, y with
          | V _ z, V _ a, V _ b =>
            vec3 n (tsize t) (tsize t) (TVec n t)
              (fun k x y => IV (if k =? 0 then y else x))
              (unlanes (tsize t) (lanes n 1 z)) a b
          | _, _, _ => Ok (Poison (TVec n t))
          end
          else TyErr
      | _ => TyErr
      end
    | _ => TyErr
    end
  else TyErr.

Definition fsh_rv (left : bool) (x y s : rv) : res rv :=
  if ty_eqb (ty_of x) (ty_of y) && ty_eqb (ty_of y) (ty_of s) then
    match ty_of x with
    | TInt w => match x, y, s with
                | V _ a, V _ b, V _ k => Ok (V (TInt w) (fsh_sem left w a b k))
                | _, _, _ => Ok (Poison (TInt w))
                end
    | _ => TyErr
    end
  else TyErr.

Section Fp.
Context `{FpuOps}.

Definition elt (t : ty) : Z * ty := match t with TVec n e => (n, e) | _ => (1, t) end.

Definition fires (n : fpname) (s t : ty) (args : list Z) : ires :=
  match fpu_op n s t args with Some z => IV (trunc (tsize t) z) | None => IP end.

(** Floating-point operations, lane by lane, with the uninterpreted [fpu_op]. *)
Definition fp1_sem (f : fpname) (t : ty) (x : rv) : res rv :=
  let '(n, e) := elt (ty_of x) in let '(n', e') := elt t in
  if (n =? n') then
    match x with
    | V _ a => vec1 n (tsize e) (tsize e') t (fun a => fires f e e' [a]) a
    | Poison _ => Ok (Poison t)
    end
  else TyErr.
Definition fp2_sem (f : fpname) (t : ty) (x y : rv) : res rv :=
  let '(n, e) := elt (ty_of x) in let '(n', e') := elt t in
  if (n =? n') && ty_eqb (ty_of x) (ty_of y) && is_fp e then
    match x, y with
    | V _ a, V _ b => vec2 n (tsize e) (tsize e') t (fun a b => fires f e e' [a; b]) a b
    | _, _ => Ok (Poison t)
    end
  else TyErr.
Definition fp3_sem (f : fpname) (t : ty) (x y z : rv) : res rv :=
  let '(n, e) := elt (ty_of x) in let '(n', e') := elt t in
  if (n =? n') && ty_eqb (ty_of x) (ty_of y) && ty_eqb (ty_of x) (ty_of z) && is_fp e then
    match x, y, z with
    | V _ a, V _ b, V _ c => vec3 n (tsize e) (tsize e') t (fun a b c => fires f e e' [a; b; c]) a b c
    | _, _, _ => Ok (Poison t)
    end
  else TyErr.

(** Dispatch by the number of operands. *)
Definition sem1 (o : op1) (x : rv) : res rv :=
  match o with
  | OCast c t => cast_sem c t x
  | OIntr1 i => intr1_rv i x
  | OExtract i => extract_sem i x
  | OSplat n => splat_sem n x
  | OFp1 f t => fp1_sem f t x
  end.
Definition sem2 (o : op2) (x y : rv) : res rv :=
  match o with
  | OBin b => bin_sem b x y
  | OCmp p => cmp_sem p x y
  | OIntr2 i => intr2_rv i x y
  | OOv o => ov_rv o x y
  | OGep => gep_sem x y
  | OInsert i => insert_sem i x y
  | OShuf m => shuf_sem m x y
  | OFp2 f t => fp2_sem f t x y
  end.
Definition sem3 (o : op3) (x y z : rv) : res rv :=
  match o with
  | OSel => sel_sem x y z
  | OFsh l => fsh_rv l x y z
  | OFp3 f t => fp3_sem f t x y z
  end.

(** Evaluation. Branching on poison is UB. *)
Fixpoint eval {L} (env : L -> res rv) (e : exp L) : res rv :=
  match e with
  | ELeaf l => env l
  | EConst t z => Ok (V t (trunc (tsize t) z))
  | EUndef t => Ok (Poison t)
  | E1 o a => do x <- eval env a; sem1 o x
  | E2 o a b => do x <- eval env a; do y <- eval env b; sem2 o x y
  | E3 o a b c => do x <- eval env a; do y <- eval env b; do z <- eval env c; sem3 o x y z
  | EIf c a b =>
    do x <- eval env c;
    match x with
    | V (TInt 1) z => if z =? 0 then eval env b else eval env a
    | Poison (TInt 1) => UB
    | _ => TyErr
    end
  end.
End Fp.

(** Builder notations, named after the IRBuilder methods. *)
Definition cI {L} (w z : Z) : exp L := EConst (TInt w) z.
Definition eBin {L} (o : binop) (a b : exp L) : exp L := E2 (OBin o) a b.
Definition eAdd {L} := @eBin L Add.
Definition eSub {L} := @eBin L Sub.
Definition eMul {L} := @eBin L Mul.
Definition eAnd {L} := @eBin L And.
Definition eOr {L} := @eBin L Or.
Definition eXor {L} := @eBin L Xor.
Definition eShl {L} := @eBin L Shl.
Definition eLShr {L} := @eBin L LShr.
Definition eAShr {L} := @eBin L AShr.
Definition eCmp {L} (p : icmp) (a b : exp L) : exp L := E2 (OCmp p) a b.
Definition eSel {L} (c a b : exp L) : exp L := E3 OSel c a b.
Definition eCast {L} (c : castop) (t : ty) (a : exp L) : exp L := E1 (OCast c t) a.
Definition eZExt {L} (w : Z) (a : exp L) : exp L := E1 (OCast CZExt (TInt w)) a.
Definition eSExt {L} (w : Z) (a : exp L) : exp L := E1 (OCast CSExt (TInt w)) a.
Definition eTrunc {L} (w : Z) (a : exp L) : exp L := E1 (OCast CTrunc (TInt w)) a.
Definition eBitCast {L} (t : ty) (a : exp L) : exp L := E1 (OCast CBitCast t) a.
(** CreateNot at a given integer width: xor with all ones. *)
Definition eNot {L} (w : Z) (a : exp L) : exp L := eXor a (cI w (-1)).
