(** Register access types ("facets"): model of /repo/src/facet.inc,
    facet.h:38-73 and facet.cc:33-113. *)

From Coq Require Import ZArith Lia List Bool.
From Verif Require Import Bits IR.
Import ListNotations.
Open Scope Z_scope.

(** facet.inc 1-47, in order; facet.h:40-57. [F_MAX] is Facet::MAX. *)
Inductive facet :=
| I1 | I8 | I16 | I32 | I64 | I128
| F32 | F64
| V1I8 | V2I8 | V4I8 | V8I8 | V16I8
| V1I16 | V2I16 | V4I16 | V8I16
| V1I32 | V2I32 | V4I32
| V1I64 | V2I64
| V1F32 | V2F32 | V4F32
| V1F64 | V2F64
| PTR | I8H
| FI | VI8 | VI16 | VI32 | VI64 | VF32 | VF64
| F_MAX.

Definition facet_eq_dec : forall a b : facet, {a = b} + {a <> b}.
Proof. decide equality. Defined.
Definition facet_eqb (a b : facet) : bool := if facet_eq_dec a b then true else false.

Definition all_facets : list facet :=
  [I1; I8; I16; I32; I64; I128; F32; F64; V1I8; V2I8; V4I8; V8I8; V16I8; V1I16; V2I16; V4I16; V8I16;
   V1I32; V2I32; V4I32; V1I64; V2I64; V1F32; V2F32; V4F32; V1F64; V2F64; PTR; I8H;
   FI; VI8; VI16; VI32; VI64; VF32; VF64; F_MAX].

(** VECTOR_FACET rows of facet.inc 13-33: facet, count, scalar facet. *)
Definition vector_facets : list (facet * Z * facet) :=
  [(V1I8, 1, I8); (V2I8, 2, I8); (V4I8, 4, I8); (V8I8, 8, I8); (V16I8, 16, I8);
   (V1I16, 1, I16); (V2I16, 2, I16); (V4I16, 4, I16); (V8I16, 8, I16);
   (V1I32, 1, I32); (V2I32, 2, I32); (V4I32, 4, I32);
   (V1I64, 1, I64); (V2I64, 2, I64);
   (V1F32, 1, F32); (V2F32, 2, F32); (V4F32, 4, F32);
   (V1F64, 1, F64); (V2F64, 2, F64)].

(** facet.cc:33-41 Facet::In; [F_MAX] for the assert(false) path. *)
Definition facet_In (size : Z) : facet :=
  if size =? 1 then I1 else if size =? 8 then I8 else if size =? 16 then I16
  else if size =? 32 then I32 else if size =? 64 then I64 else if size =? 128 then I128
  else F_MAX.

(** facet.cc:43-49 Facet::Vnt. *)
Definition facet_Vnt (num : Z) (scalar : facet) : facet :=
  match find (fun r => let '(f, n, s) := r in (n =? num) && facet_eqb s scalar) vector_facets with
  | Some (f, _, _) => f
  | None => F_MAX
  end.

(** facet.cc:51-65 Facet::FromType. *)
Fixpoint facet_FromType (t : ty) : facet :=
  match t with
  | TVec n e => facet_Vnt n (facet_FromType e)
  | TInt w => facet_In w
  | TF32 => F32
  | TF64 => F64
  | TPtr => F_MAX
  end.

(** facet.cc:67-82 Facet::Size; 0 for pseudo facets (assert). *)
Definition facet_size (f : facet) : Z :=
  match f with
  | I1 => 1 | I8 => 8 | I16 => 16 | I32 => 32 | I64 => 64 | I128 => 128
  | F32 => 32 | F64 => 64
  | V1I8 => 1*8 | V2I8 => 2*8 | V4I8 => 4*8 | V8I8 => 8*8 | V16I8 => 16*8
  | V1I16 => 1*16 | V2I16 => 2*16 | V4I16 => 4*16 | V8I16 => 8*16
  | V1I32 => 1*32 | V2I32 => 2*32 | V4I32 => 4*32
  | V1I64 => 1*64 | V2I64 => 2*64
  | V1F32 => 1*32 | V2F32 => 2*32 | V4F32 => 4*32
  | V1F64 => 1*64 | V2F64 => 2*64
  | PTR => 64 | I8H => 8
  | _ => 0
  end.

(** facet.cc:84-100 Facet::Type; [None] for pseudo facets (assert). *)
Definition facet_type_opt (f : facet) : option ty :=
  match f with
  | I1 => Some (TInt 1) | I8 => Some (TInt 8) | I16 => Some (TInt 16) | I32 => Some (TInt 32)
  | I64 => Some (TInt 64) | I128 => Some (TInt 128)
  | F32 => Some TF32 | F64 => Some TF64
  | V1I8 => Some (TVec 1 (TInt 8)) | V2I8 => Some (TVec 2 (TInt 8)) | V4I8 => Some (TVec 4 (TInt 8))
  | V8I8 => Some (TVec 8 (TInt 8)) | V16I8 => Some (TVec 16 (TInt 8))
  | V1I16 => Some (TVec 1 (TInt 16)) | V2I16 => Some (TVec 2 (TInt 16)) | V4I16 => Some (TVec 4 (TInt 16))
  | V8I16 => Some (TVec 8 (TInt 16))
  | V1I32 => Some (TVec 1 (TInt 32)) | V2I32 => Some (TVec 2 (TInt 32)) | V4I32 => Some (TVec 4 (TInt 32))
  | V1I64 => Some (TVec 1 (TInt 64)) | V2I64 => Some (TVec 2 (TInt 64))
  | V1F32 => Some (TVec 1 TF32) | V2F32 => Some (TVec 2 TF32) | V4F32 => Some (TVec 4 TF32)
  | V1F64 => Some (TVec 1 TF64) | V2F64 => Some (TVec 2 TF64)
  | PTR => Some TPtr | I8H => Some (TInt 8)
  | _ => None
  end.
Definition facet_type (f : facet) : ty :=
  match facet_type_opt f with Some t => t | None => TInt 0 end.

(** facet.cc:102-113 Facet::Resolve; facet.inc 35-47 for the pseudo facets. *)
Definition facet_Resolve (f : facet) (bits : Z) : facet :=
  match f with
  | FI => facet_In bits
  | VI8 => facet_Vnt (bits / 8) I8
  | VI16 => facet_Vnt (bits / 16) I16
  | VI32 => facet_Vnt (bits / 32) I32
  | VI64 => facet_Vnt (bits / 64) I64
  | VF32 => facet_Vnt (bits / 32) F32
  | VF64 => facet_Vnt (bits / 64) F64
  | _ => f
  end.

Definition facet_real (f : facet) : bool := match facet_type_opt f with Some _ => true | None => false end.
