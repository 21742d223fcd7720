(** Independent specification of the x86-64 general-purpose instructions (Intel
    SDM volume 2; AMD APM where the SDM leaves BSF/BSR of zero undefined).
    Nothing here refers to the lifter, to LLVM-IR or to the helpers of Bits.v;
    only the decoded-instruction record, the byte-addressed memory type and the
    elementary functions of Rv64Spec.v (U, S_, rd_mem, wr_mem, clz, ctz, cpop)
    are shared. All arithmetic is on [Z]. *)

From Coq Require Import ZArith List Bool.
From Verif Require Import Bits Rv64Spec X86.
Import ListNotations.
Open Scope Z_scope.

Inductive xflag := fCF | fPF | fAF | fZF | fSF | fOF | fDF.
(** Guest state: sixteen registers, flags ([None]: architecturally undefined),
    FS and GS base, instruction pointer, memory. *)
Record xst := Xst { y_r : Z -> Z; y_f : xflag -> option bool; y_fs : Z; y_gs : Z; y_ip : Z; y_m : bytes }.

Definition set_r g v := Xst v (y_f g) (y_fs g) (y_gs g) (y_ip g) (y_m g).
Definition set_f g v := Xst (y_r g) v (y_fs g) (y_gs g) (y_ip g) (y_m g).
Definition set_ip g v := Xst (y_r g) (y_f g) (y_fs g) (y_gs g) (U 64 v) (y_m g).
Definition set_m g v := Xst (y_r g) (y_f g) (y_fs g) (y_gs g) (y_ip g) v.

(** ** Operands *)

(** Effective address without segment base; [y_ip] is the address of the next
    instruction during execution. *)
Definition ea_off (g : xst) (m : xmem) : Z :=
  U (8 * m_asz m)
    (match m_base m with BNone => 0 | BRip => y_ip g | BReg r => y_r g r end +
     match m_index m with Some x => y_r g x * 2 ^ m_lscale m | None => 0 end + m_off m).
Definition seg_base (g : xst) (seg : Z) : Z := if seg =? 4 then y_fs g else if seg =? 5 then y_gs g else 0.
Definition ea (g : xst) (m : xmem) : Z := U 64 (ea_off g m + seg_base g (m_seg m)).

(** A resolved operand location. *)
Inductive loc := LReg (w : Z) (r : Z) | LHi (r : Z) | LMem (w : Z) (a : Z) | LBad.
Definition loc_of (g : xst) (o : xopnd) : loc :=
  match o with
  | XReg w hi r => if hi then LHi (r - 4) else LReg w r
  | XMem w m => LMem w (ea g m)
  | _ => LBad
  end.
Definition bytes_of (w : Z) : nat := Z.to_nat (w / 8).
Definition rd_loc (g : xst) (l : loc) : Z :=
  match l with
  | LReg w r => U w (y_r g r)
  | LHi r => (y_r g r / 256) mod 256
  | LMem w a => rd_mem (y_m g) a (bytes_of w)
  | LBad => 0
  end.
(** 64-bit writes replace the register, 32-bit writes clear the upper half,
    smaller writes keep the other bits. *)
Definition reg_merge (w old v : Z) : Z :=
  if w =? 64 then U 64 v else if w =? 32 then U 32 v else old - old mod 2^w + v mod 2^w.
Definition wr_reg (g : xst) (w r v : Z) : xst :=
  set_r g (fun k => if k =? r then reg_merge w (y_r g r) v else y_r g k).
Definition wr_hi (g : xst) (r v : Z) : xst :=
  set_r g (fun k => if k =? r then y_r g r - ((y_r g r / 256) mod 256) * 256 + (v mod 256) * 256 else y_r g k).
Definition wr_loc (g : xst) (l : loc) (v : Z) : xst :=
  match l with
  | LReg w r => wr_reg g w r v
  | LHi r => wr_hi g r v
  | LMem w a => set_m g (wr_mem (y_m g) a (bytes_of w) v)
  | LBad => g
  end.
Definition rd_op (g : xst) (o : xopnd) : Z :=
  match o with XImm w v => U w v | _ => rd_loc g (loc_of g o) end.
Definition wr_op (g : xst) (o : xopnd) (v : Z) : xst := wr_loc g (loc_of g o) v.

(** ** Flags *)
Definition xflag_eqb (a b : xflag) : bool :=
  match a, b with
  | fCF, fCF | fPF, fPF | fAF, fAF | fZF, fZF | fSF, fSF | fOF, fOF | fDF, fDF => true
  | _, _ => false
  end.
Definition set1 (g : xst) (f : xflag) (v : option bool) : xst :=
  set_f g (fun f' => if xflag_eqb f f' then v else y_f g f').
(** Make flags undefined. *)
Definition forget (l : list xflag) (g : xst) : xst :=
  set_f g (fun f => if existsb (xflag_eqb f) l then None else y_f g f).

Definition zf_of (w r : Z) : bool := U w r =? 0.
Definition sf_of (w r : Z) : bool := 2^(w-1) <=? U w r.
(** Even number of ones in the low byte. *)
Definition pf_of (r : Z) : bool := Z.even (cpop 8 r).
Definition s_out (w s : Z) : bool := negb ((- 2^(w-1) <=? s) && (s <? 2^(w-1))).

(** a + b + k and a - b - k for operands below 2^w; [keep]: CF unchanged. *)
Definition add_flags (w a b k : Z) (keep : bool) (g : xst) : xst :=
  set_f g (fun f =>
    match f with
    | fZF => Some (zf_of w (a + b + k))
    | fSF => Some (sf_of w (a + b + k))
    | fPF => Some (pf_of (a + b + k))
    | fAF => Some (16 <=? a mod 16 + b mod 16 + k)
    | fCF => if keep then y_f g fCF else Some (2^w <=? a + b + k)
    | fOF => Some (s_out w (S_ w a + S_ w b + k))
    | fDF => y_f g fDF
    end).
Definition sub_flags (w a b k : Z) (keep : bool) (g : xst) : xst :=
  set_f g (fun f =>
    match f with
    | fZF => Some (zf_of w (a - b - k))
    | fSF => Some (sf_of w (a - b - k))
    | fPF => Some (pf_of (a - b - k))
    | fAF => Some (a mod 16 <? b mod 16 + k)
    | fCF => if keep then y_f g fCF else Some (a <? b + k)
    | fOF => Some (s_out w (S_ w a - S_ w b - k))
    | fDF => y_f g fDF
    end).
(** ZF, SF, PF by the result, AF undefined, CF and OF as given. *)
Definition res_flags (w r : Z) (cf of_ : option bool) (g : xst) : xst :=
  set_f g (fun f =>
    match f with
    | fZF => Some (zf_of w r) | fSF => Some (sf_of w r) | fPF => Some (pf_of r)
    | fAF => None | fCF => cf | fOF => of_ | fDF => y_f g fDF
    end).
Definition logic_flags (w r : Z) : xst -> xst := res_flags w r (Some false) (Some false).

(** Condition codes 0..15 (SDM appendix B). *)
Definition obind {A B} (x : option A) (k : A -> option B) : option B := match x with Some a => k a | None => None end.
Definition cc_base (n : Z) (cf zf sf pf of_ : bool) : bool :=
  match n with
  | 0 => of_
  | 1 => cf
  | 2 => zf
  | 3 => cf || zf
  | 4 => sf
  | 5 => pf
  | 6 => xorb sf of_
  | _ => zf || xorb sf of_
  end.
Definition cc_bool (cc : Z) (cf zf sf pf of_ : bool) : bool :=
  if Z.odd cc then negb (cc_base (cc / 2) cf zf sf pf of_) else cc_base (cc / 2) cf zf sf pf of_.
(** Flags a condition reads. *)
Definition cc_reads (cc : Z) : list xflag :=
  match cc / 2 with
  | 0 => [fOF] | 1 => [fCF] | 2 => [fZF] | 3 => [fCF; fZF] | 4 => [fSF] | 5 => [fPF] | 6 => [fSF; fOF] | _ => [fZF; fSF; fOF]
  end.
Definition fl (g : xst) (f : xflag) : bool := match y_f g f with Some b => b | None => false end.
Definition defined (g : xst) (l : list xflag) : bool :=
  forallb (fun f => match y_f g f with Some _ => true | None => false end) l.
Definition cond (g : xst) (cc : Z) : option bool :=
  if defined g (cc_reads cc) then Some (cc_bool cc (fl g fCF) (fl g fZF) (fl g fSF) (fl g fPF) (fl g fOF)) else None.

(** The flags image: CF 0, 1 at bit 1, PF 2, AF 4, ZF 6, SF 7, IF (set) 9, DF 10, OF 11. *)
Definition bz (b : bool) : Z := if b then 1 else 0.
Definition all_flags : list xflag := [fCF; fPF; fAF; fZF; fSF; fOF; fDF].
Definition rflags (g : xst) : Z :=
  bz (fl g fCF) + 2 + 4 * bz (fl g fPF) + 16 * bz (fl g fAF) + 64 * bz (fl g fZF) + 128 * bz (fl g fSF) +
  512 + 1024 * bz (fl g fDF) + 2048 * bz (fl g fOF).
(** Loading flags from an image of [n] bits. *)
Definition flag_pos (f : xflag) : Z :=
  match f with fCF => 0 | fPF => 2 | fAF => 4 | fZF => 6 | fSF => 7 | fDF => 10 | fOF => 11 end.
Definition load_flags (n v : Z) (g : xst) : xst :=
  set_f g (fun f => if flag_pos f <? n then Some (Z.odd (v / 2 ^ flag_pos f)) else y_f g f).

(** ** Stack *)
Definition push (g : xst) (w v : Z) : xst :=
  let sp := U 64 (y_r g 4 - w / 8) in
  wr_reg (set_m g (wr_mem (y_m g) sp (bytes_of w) v)) 64 4 sp.

(** ** Instructions *)
Definition cmask (w c : Z) : Z := c mod (if w =? 64 then 64 else 32).
(** Byte reversal. *)
Definition bswap (w a : Z) : Z :=
  let n := w / 8 in
  fold_right (fun k acc => acc + ((a / 256 ^ k) mod 256) * 256 ^ (n - 1 - k)) 0 (map Z.of_nat (seq 0 (Z.to_nat n))).
(** Index of the highest one bit. *)
Definition msb (w a : Z) : Z := w - 1 - clz (Z.to_nat w) a.

Definition is_lock_ok (i : xinst) : bool := negb (x_lock i) || op_ismem (x_op0 i).
Definition bad_seg (o : xopnd) : bool := match o with XMem _ m => (m_seg m =? 4) || (m_seg m =? 5) | _ => false end.

(** One instruction in a state whose [y_ip] already points past it. [None]: the
    architecture raises an exception or does not define the result. External
    effects (CALL and SYSCALL handlers) are not part of it. *)
Definition isa (i : xinst) (g : xst) : option xst :=
  let o0 := x_op0 i in let o1 := x_op1 i in let o2 := x_op2 i in
  let w := op_bits o0 in let w1 := op_bits o1 in
  let a := rd_op g o0 in let b := rd_op g o1 in
  let nip := y_ip g in
  let tgt := match o0 with XOff d => U 64 (nip + d) | _ => a end in
  match x_mn i with
  | X_NOP => Some g
  | X_MOV | X_MOVSX => Some (wr_op g o0 (S_ w1 b))
  | X_MOVZX => Some (wr_op g o0 b)
  | X_MOVBE => Some (wr_op g o0 (bswap w b))
  | X_ADD => Some (add_flags w a b 0 false (wr_op g o0 (a + b)))
  | X_ADC => obind (y_f g fCF) (fun k => Some (add_flags w a b (bz k) false (wr_op g o0 (a + b + bz k))))
  | X_SUB => Some (sub_flags w a b 0 false (wr_op g o0 (a - b)))
  | X_SBB => obind (y_f g fCF) (fun k => Some (sub_flags w a b (bz k) false (wr_op g o0 (a - b - bz k))))
  | X_CMP => Some (sub_flags w a b 0 false g)
  | X_XADD => let l0 := loc_of g o0 in Some (add_flags w a b 0 false (wr_loc (wr_op g o1 a) l0 (a + b)))
  | X_XCHG => let l0 := loc_of g o0 in let l1 := loc_of g o1 in Some (wr_loc (wr_loc g l0 b) l1 a)
  | X_CMPXCHG =>
    let l0 := loc_of g o0 in let acc := U w (y_r g 0) in
    Some (sub_flags w acc a 0 false
            (if acc =? a then wr_loc g l0 b else wr_reg (wr_loc g l0 a) w 0 a))
  | X_INC => Some (add_flags w a 1 0 true (wr_op g o0 (a + 1)))
  | X_DEC => Some (sub_flags w a 1 0 true (wr_op g o0 (a - 1)))
  | X_NEG => Some (sub_flags w 0 a 0 false (wr_op g o0 (- a)))
  | X_NOT => Some (wr_op g o0 (2^w - 1 - a))
  | X_AND => Some (logic_flags w (Z.land a b) (wr_op g o0 (Z.land a b)))
  | X_OR => Some (logic_flags w (Z.lor a b) (wr_op g o0 (Z.lor a b)))
  | X_XOR => Some (logic_flags w (Z.lxor a b) (wr_op g o0 (Z.lxor a b)))
  | X_TEST => Some (logic_flags w (Z.land a b) g)
  | X_LEA => match o1 with XMem _ m => Some (wr_op g o0 (ea_off g m)) | _ => None end
  | X_XLATB => let ad := U (8 * x_addrsz i) (y_r g 3 + y_r g 0 mod 256) in
               Some (wr_reg g 8 0 (rd_mem (y_m g) ad 1))
  | X_MUL =>
    let p := a * U w (y_r g 0) in let o := Some (2^w <=? p) in
    Some (set1 (set1 (forget [fSF; fZF; fAF; fPF]
            (if w =? 8 then wr_reg g 16 0 p else wr_reg (wr_reg g w 0 p) w 2 (p / 2^w))) fCF o) fOF o)
  | X_IMUL =>
    let fin p g' := let o := Some (s_out w p) in Some (set1 (set1 (forget [fSF; fZF; fAF; fPF] g') fCF o) fOF o) in
    if op_there o2 then let p := S_ w b * S_ w (rd_op g o2) in fin p (wr_op g o0 p)
    else if op_there o1 then let p := S_ w a * S_ w b in fin p (wr_op g o0 p)
    else let p := S_ w a * S_ w (y_r g 0) in
         fin p (if w =? 8 then wr_reg g 16 0 p else wr_reg (wr_reg g w 0 p) w 2 (p / 2^w))
  | X_DIV =>
    let n := if w =? 8 then U 16 (y_r g 0) else U w (y_r g 2) * 2^w + U w (y_r g 0) in
    if (a =? 0) || (2^w <=? n / a) then None
    else Some (forget [fCF; fOF; fSF; fZF; fAF; fPF]
           (if w =? 8 then wr_hi (wr_reg g 8 0 (n / a)) 0 (n mod a) else wr_reg (wr_reg g w 0 (n / a)) w 2 (n mod a)))
  | X_IDIV =>
    let n := if w =? 8 then S_ 16 (y_r g 0) else S_ (2 * w) (U w (y_r g 2) * 2^w + U w (y_r g 0)) in
    let d := S_ w a in
    if (d =? 0) || s_out w (Z.quot n d) then None
    else Some (forget [fCF; fOF; fSF; fZF; fAF; fPF]
           (if w =? 8 then wr_hi (wr_reg g 8 0 (Z.quot n d)) 0 (Z.rem n d)
            else wr_reg (wr_reg g w 0 (Z.quot n d)) w 2 (Z.rem n d)))
  | X_SHL =>
    let c := cmask w b in let r := a * 2^c in let cf := Z.testbit a (w - c) in
    if c =? 0 then Some (wr_op g o0 a)
    else Some (res_flags w r (if c <? w then Some cf else None)
                 (if c =? 1 then Some (xorb (sf_of w r) cf) else None) (wr_op g o0 r))
  | X_SHR =>
    let c := cmask w b in let r := a / 2^c in
    if c =? 0 then Some (wr_op g o0 a)
    else Some (res_flags w r (if c <? w then Some (Z.testbit a (c - 1)) else None)
                 (if c =? 1 then Some (sf_of w a) else None) (wr_op g o0 r))
  | X_SAR =>
    let c := cmask w b in let r := S_ w a / 2^c in
    if c =? 0 then Some (wr_op g o0 a)
    else Some (res_flags w r (Some (Z.testbit (S_ w a) (c - 1)))
                 (if c =? 1 then Some false else None) (wr_op g o0 r))
  | X_ROL =>
    let c := cmask w b in let r := rotl w a c in
    if c =? 0 then Some (wr_op g o0 a)
    else Some (set1 (set1 (wr_op g o0 r) fCF (Some (Z.odd r))) fOF
                 (if c =? 1 then Some (xorb (sf_of w r) (Z.odd r)) else None))
  | X_ROR =>
    let c := cmask w b in let r := rotr w a c in
    if c =? 0 then Some (wr_op g o0 a)
    else Some (set1 (set1 (wr_op g o0 r) fCF (Some (sf_of w r))) fOF
                 (if c =? 1 then Some (xorb (sf_of w r) (Z.testbit r (w - 2))) else None))
  | X_SHLD =>
    let c := cmask w (rd_op g o2) in let r := a * 2^c + b / 2^(w - c) in
    if c =? 0 then Some (wr_op g o0 a)
    else if w <? c then None
    else Some (res_flags w r (Some (Z.testbit a (w - c)))
                 (if c =? 1 then Some (xorb (sf_of w a) (sf_of w r)) else None) (wr_op g o0 r))
  | X_SHRD =>
    let c := cmask w (rd_op g o2) in let r := a / 2^c + b * 2^(w - c) in
    if c =? 0 then Some (wr_op g o0 a)
    else if w <? c then None
    else Some (res_flags w r (Some (Z.testbit a (c - 1)))
                 (if c =? 1 then Some (xorb (sf_of w a) (sf_of w r)) else None) (wr_op g o0 r))
  | X_BSF =>
    Some (set1 (forget [fCF; fOF; fSF; fAF; fPF] (if b =? 0 then g else wr_op g o0 (ctz (Z.to_nat w1) b))) fZF (Some (b =? 0)))
  | X_BSR =>
    Some (set1 (forget [fCF; fOF; fSF; fAF; fPF] (if b =? 0 then g else wr_op g o0 (msb w1 b))) fZF (Some (b =? 0)))
  | X_TZCNT =>
    Some (set1 (set1 (forget [fOF; fSF; fAF; fPF] (wr_op g o0 (ctz (Z.to_nat w1) b))) fZF (Some (Z.odd b))) fCF (Some (b =? 0)))
  | X_LZCNT =>
    Some (set1 (set1 (forget [fOF; fSF; fAF; fPF] (wr_op g o0 (clz (Z.to_nat w1) b))) fZF (Some (sf_of w1 b))) fCF (Some (b =? 0)))
  | X_POPCNT =>
    Some (set_f (wr_op g o0 (cpop (Z.to_nat w1) b))
            (fun f => match f with fZF => Some (b =? 0) | fDF => y_f g fDF | _ => Some false end))
  | X_BT | X_BTC | X_BTR | X_BTS =>
    let mem_reg := op_ismem o0 && op_isreg o1 in
    if mem_reg && (match o0 with XMem _ m => negb (m_asz m =? 8) | _ => false end) then None else
    let k := b mod w in
    let l0 := match o0 with
              | XMem _ m => LMem w (U 64 (ea g m + (if op_isreg o1 then (S_ w1 b / w) * (w / 8) else 0)))
              | _ => loc_of g o0
              end in
    let v := rd_loc g l0 in let bit := Z.testbit v k in
    let g' := match x_mn i with
              | X_BTS => wr_loc g l0 (if bit then v else v + 2^k)
              | X_BTR => wr_loc g l0 (if bit then v - 2^k else v)
              | X_BTC => wr_loc g l0 (if bit then v - 2^k else v + 2^k)
              | _ => g
              end in
    Some (set1 (forget [fOF; fSF; fAF; fPF] g') fCF (Some bit))
  | X_BSWAP => if w =? 16 then None else Some (wr_op g o0 (bswap w a))
  | X_CEXT => let n := 8 * x_opsz i in Some (wr_reg g n 0 (S_ (n / 2) (y_r g 0)))
  | X_CSEP => let n := 8 * x_opsz i in Some (wr_reg g n 2 (S_ n (y_r g 0) / 2^(n - 1)))
  | X_CLC => Some (set1 g fCF (Some false))
  | X_STC => Some (set1 g fCF (Some true))
  | X_CMC => obind (y_f g fCF) (fun k => Some (set1 g fCF (Some (negb k))))
  | X_CLD => Some (set1 g fDF (Some false))
  | X_STD => Some (set1 g fDF (Some true))
  | X_CMOV cc => obind (cond g cc) (fun k => Some (wr_op g o0 (if k then b else a)))
  | X_SET cc => obind (cond g cc) (fun k => Some (wr_op g o0 (bz k)))
  | X_J cc => obind (cond g cc) (fun k => Some (if k then set_ip g tgt else g))
  | X_JMP => Some (set_ip g tgt)
  | X_JCXZ => Some (if U (8 * x_addrsz i) (y_r g 1) =? 0 then set_ip g tgt else g)
  | X_LOOP | X_LOOPZ | X_LOOPNZ =>
    let n := 8 * x_addrsz i in let k := U n (y_r g 1 - 1) in
    let g' := wr_reg g n 1 k in
    obind (match x_mn i with
           | X_LOOP => Some true | X_LOOPZ => y_f g fZF | _ => obind (y_f g fZF) (fun z => Some (negb z))
           end)
      (fun q => Some (if negb (k =? 0) && q then set_ip g' tgt else g'))
  | X_PUSH => Some (push g w a)
  | X_PUSHF => if defined g all_flags then Some (push g (8 * x_opsz i) (rflags g)) else None
  | X_POP => let sp := y_r g 4 in
             Some (let g1 := wr_reg g 64 4 (sp + w / 8) in wr_op g1 o0 (rd_mem (y_m g) sp (bytes_of w)))
  | X_POPF => let sp := y_r g 4 in let n := 8 * x_opsz i in
              Some (load_flags n (rd_mem (y_m g) sp (bytes_of n)) (wr_reg g 64 4 (sp + x_opsz i)))
  | X_LEAVE => let sp := y_r g 5 in
               Some (wr_reg (wr_reg g 64 4 (sp + 8)) 64 5 (rd_mem (y_m g) sp 8))
  | X_CALL => Some (set_ip (push g 64 nip) tgt)
  | X_RET => let sp := y_r g 4 in
             Some (set_ip (wr_reg g 64 4 (sp + 8 + match o0 with XImm _ v => U 16 v | _ => 0 end)) (rd_mem (y_m g) sp 8))
  | X_SYSCALL => if defined g all_flags then Some (wr_reg (wr_reg g 64 1 nip) 64 11 (rflags g)) else None
  | X_LAHF => if defined g [fCF; fPF; fAF; fZF; fSF] then Some (wr_hi g 0 (U 8 (rflags g))) else None
  | X_SAHF => Some (load_flags 8 ((y_r g 0 / 256) mod 256) g)
  | X_LODS | X_STOS | X_MOVS | X_SCAS | X_CMPS | X_OTHER => None
  end.
Definition xspec (i : xinst) (g : xst) : option xst := isa i (set_ip g (y_ip g + x_len i)).

(** ** What the decoder produces *)
Definition okw (w : Z) : bool := (w =? 8) || (w =? 16) || (w =? 32) || (w =? 64).
Definition okr (r : Z) : bool := (0 <=? r) && (r <? 16).
Definition wf_mem (m : xmem) : bool :=
  (match m_base m with BReg r => okr r | BRip => match m_index m with None => true | _ => false end | _ => true end) &&
  (match m_index m with Some x => okr x && (0 <=? m_lscale m) && (m_lscale m <=? 3) | None => true end) &&
  ((m_asz m =? 4) || (m_asz m =? 8)) && (0 <=? m_seg m) && (m_seg m <=? 6) &&
  (- 2^63 <=? m_off m) && (m_off m <? 2^63).
Definition wf_op (o : xopnd) : bool :=
  match o with
  | XNone => true
  | XReg w hi r => if hi then (w =? 8) && (4 <=? r) && (r <=? 7) else okw w && okr r
  | XImm w v => okw w
  | XOff v => true
  | XMem w m => okw w && wf_mem m
  end.
Definition op_rm (o : xopnd) : bool := match o with XReg _ _ _ | XMem _ _ => true | _ => false end.
Definition op_val (o : xopnd) : bool := match o with XReg _ _ _ | XMem _ _ | XImm _ _ => true | _ => false end.
Definition is_off (o : xopnd) : bool := match o with XOff _ => true | _ => false end.
Definition is_none (o : xopnd) : bool := negb (op_there o).

(** Operand shapes by mnemonic. *)
Definition shape_ok (i : xinst) : bool :=
  let o0 := x_op0 i in let o1 := x_op1 i in let o2 := x_op2 i in
  let w := op_bits o0 in let w1 := op_bits o1 in let n := x_opsz i in let an := x_addrsz i in
  match x_mn i with
  | X_MOV => op_rm o0 && op_val o1 && (w1 <=? w)
  | X_MOVSX => op_isreg o0 && op_rm o1 && (w1 <=? w)
  | X_MOVZX => op_isreg o0 && op_rm o1 && (16 <=? w) && (w1 <? w) && (w1 <=? 16)
  | X_MOVBE => op_rm o0 && op_rm o1 && (w1 =? w) && (16 <=? w)
  | X_ADD | X_ADC | X_SUB | X_SBB | X_CMP | X_AND | X_OR | X_XOR | X_TEST => op_rm o0 && op_val o1 && (w1 =? w)
  | X_XADD | X_CMPXCHG | X_XCHG => op_rm o0 && op_isreg o1 && (w1 =? w)
  | X_INC | X_DEC | X_NEG | X_NOT => op_rm o0
  | X_LEA => op_isreg o0 && op_ismem o1 && (16 <=? w)
  | X_XLATB => (an =? 4) || (an =? 8)
  | X_MUL | X_DIV | X_IDIV => op_rm o0 && is_none o1 && is_none o2
  | X_IMUL => op_rm o0 && (if op_there o2 then op_isreg o0 && op_rm o1 && op_val o2 && (w1 =? w) && (op_bits o2 =? w) && (16 <=? w)
                           else if op_there o1 then op_isreg o0 && op_rm o1 && (w1 =? w) && (16 <=? w) else true)
  | X_SHL | X_SHR | X_SAR | X_ROL | X_ROR => op_rm o0 && op_val o1 && (w1 =? 8)
  | X_SHLD | X_SHRD => op_rm o0 && op_isreg o1 && (w1 =? w) && (16 <=? w) && op_val o2 && (op_bits o2 =? 8)
  | X_BSF | X_BSR | X_TZCNT | X_LZCNT | X_POPCNT => op_isreg o0 && op_rm o1 && (w1 =? w) && (16 <=? w)
  | X_BT | X_BTC | X_BTR | X_BTS =>
    op_rm o0 && (16 <=? w) && match o1 with XReg _ _ _ => w1 =? w | XImm _ _ => w1 =? 8 | _ => false end
  | X_BSWAP => op_isreg o0 && (16 <=? w)
  | X_CEXT | X_CSEP => (n =? 2) || (n =? 4) || (n =? 8)
  | X_CMOV cc => op_isreg o0 && op_rm o1 && (w1 =? w) && (16 <=? w) && (0 <=? cc) && (cc <? 16)
  | X_SET cc => op_rm o0 && (w =? 8) && (0 <=? cc) && (cc <? 16)
  | X_J cc => is_off o0 && (0 <=? cc) && (cc <? 16)
  | X_JMP | X_CALL => is_off o0 || (op_rm o0 && (w =? 64))
  | X_JCXZ | X_LOOP | X_LOOPZ | X_LOOPNZ => is_off o0 && ((an =? 4) || (an =? 8))
  | X_PUSH => op_val o0 && ((w =? 16) || (w =? 64))
  | X_POP => op_rm o0 && ((w =? 16) || (w =? 64))
  | X_PUSHF | X_POPF => (n =? 2) || (n =? 8)
  | X_RET => match o0 with XNone => true | XImm w v => (w =? 16) && (0 <=? v) && (v <? 2^16) | _ => false end
  | _ => true
  end.
Definition has_hi (o : xopnd) : bool := match o with XReg _ true _ => true | _ => false end.
Definition lockable (m : xmn) : bool :=
  match m with
  | X_ADD | X_ADC | X_AND | X_BTC | X_BTR | X_BTS | X_CMPXCHG | X_DEC | X_INC | X_NEG | X_NOT | X_OR | X_SBB | X_SUB | X_XADD
  | X_XCHG | X_XOR => true
  | _ => false
  end.
Definition xwf (i : xinst) : bool :=
  wf_op (x_op0 i) && wf_op (x_op1 i) && wf_op (x_op2 i) && shape_ok i &&
  (negb (x_lock i) || (lockable (x_mn i) && op_ismem (x_op0 i))).
