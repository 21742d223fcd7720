(** Specification of the x86-64 string instructions with and without REP
    prefixes (Intel SDM volume 2, 64-bit address size), independent of the lifter. *)

From Coq Require Import ZArith List Bool.
From Verif Require Import Bits Rv64Spec X86 X86Spec.
Import ListNotations.
Open Scope Z_scope.

(** Register [r] moved by [d]. *)
Definition bump (g : xst) (r d : Z) : xst := wr_reg g 64 r (y_r g r + d).
(** One element of [k] bytes; [d]: +k or -k. RAX 0, RSI 6, RDI 7. *)
Definition str1 (mn : xmn) (k d : Z) (g : xst) : xst :=
  let w := 8 * k in let n := Z.to_nat k in let m := y_m g in let si := y_r g 6 in let di := y_r g 7 in
  match mn with
  | X_MOVS => bump (bump (set_m g (wr_mem m di n (rd_mem m si n))) 6 d) 7 d
  | X_STOS => bump (set_m g (wr_mem m di n (y_r g 0))) 7 d
  | X_LODS => bump (wr_reg g w 0 (rd_mem m si n)) 6 d
  | X_SCAS => sub_flags w (U w (y_r g 0)) (rd_mem m di n) 0 false (bump g 7 d)
  | X_CMPS => sub_flags w (rd_mem m si n) (rd_mem m di n) 0 false (bump (bump g 6 d) 7 d)
  | _ => g
  end.
(** The repeat prefix: [n] elements, RCX counting down, stopping early if [stop]
    holds after an element. *)
Fixpoint rep_iter (n : nat) (stop : xst -> bool) (step : xst -> xst) (g : xst) : xst :=
  match n with
  | O => g
  | S n' => let g1 := bump (step g) 1 (-1) in if stop g1 then g1 else rep_iter n' stop step g1
  end.
Definition zf_clear (g : xst) : bool := match y_f g fZF with Some false => true | _ => false end.
Definition zf_set (g : xst) : bool := match y_f g fZF with Some true => true | _ => false end.
Definition str_isa (i : xinst) (g : xst) : option xst :=
  let k := x_opsz i in
  if negb ((k =? 1) || (k =? 2) || (k =? 4) || (k =? 8)) || negb (x_addrsz i =? 8) || (x_rep i && x_repnz i) then None
  else
    obind (y_f g fDF) (fun df =>
    let step := str1 (x_mn i) k (if df then - k else k) in
    let n := Z.to_nat (y_r g 1) in
    match x_mn i with
    | X_MOVS | X_STOS | X_LODS =>
      if x_repnz i then None
      else Some (if x_rep i then rep_iter n (fun _ => false) step g else step g)
    | X_SCAS | X_CMPS =>
      Some (if x_rep i then rep_iter n zf_clear step g
            else if x_repnz i then rep_iter n zf_set step g else step g)
    | _ => None
    end).
Definition str_spec (i : xinst) (g : xst) : option xst := str_isa i (set_ip g (y_ip g + x_len i)).
