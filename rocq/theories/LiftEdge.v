(** Edges created while lifting, for any architecture, against the edges counted
    while decoding. *)

From Coq Require Import ZArith Lia ZifyBool List Bool Arith.
From Verif Require Import Bits IR Facet Dsl Decode DecodeOk LiftFn.
Import ListNotations.
Open Scope Z_scope.

Lemma pc_of_app : forall l l' p, pc_of (l ++ l') p = pc_of l' (pc_of l p).
Proof. induction l as [|x l IH]; intros l' p; [reflexivity|]. destruct x; cbn [app pc_of]; apply IH. Qed.

Definition pc_addrs (p : pcreg) : list Z :=
  match p with PcVal _ => [] | PcConst a => [a] | PcCond _ a1 a2 => [a1; a2] | PcCheck _ a => [a] end.
Section Run.
Context `{FpuOps}.
(** [pc_of] is what running the code gives. *)
Lemma pc_of_run : forall c l s s', run c s l = Ok s' -> pc_addrs (s_pc s') = pc_of l (pc_addrs (s_pc s)).
Proof.
  intros c. induction l as [|x l IH]; intros s s' E; cbn [run] in E; [injection E as <-; reflexivity|].
  destruct (run1 c s x) as [s1| |] eqn:E1; cbn [bind] in E; try discriminate. rewrite (IH _ _ E). clear E IH.
  assert (X : pc_addrs (s_pc s1) = pc_of [x] (pc_addrs (s_pc s))).
  { destruct x; cbn [run1 pc_of] in *; unfold bind in E1;
    repeat match type of E1 with
    | match ?e with _ => _ end = Ok _ => destruct e; try discriminate E1
    | (if ?e then _ else _) = Ok _ => destruct e; try discriminate E1
    end; try (injection E1 as <-); reflexivity. }
  rewrite X. destruct x; reflexivity.
Qed.
(** The block branched to is one of these. *)
Lemma branch_in : forall c p k a1 a2 t, pc_branch c p = Ok (k, a1, a2) -> target k a1 a2 = Ok t -> t = 0 \/ In t (pc_addrs p).
Proof.
  intros c p k a1 a2 t E T. destruct p as [v|a|k' b1 b2|v a]; cbn [pc_branch pc_addrs] in *.
  - injection E as <- <- <-. cbn [target] in T. injection T as <-. left. reflexivity.
  - injection E as <- <- <-. cbn [target] in T. injection T as <-. right. left. reflexivity.
  - injection E as <- <- <-. unfold target in T. destruct k' as [u z|]; [|discriminate]. injection T as <-. right.
    destruct (z =? 0); cbn [In]; auto.
  - destruct (cmp_sem _ _ _) as [k'| |]; cbn [bind] in E; try discriminate. injection E as <- <- <-.
    unfold target in T. destruct k' as [u z|]; [|discriminate]. injection T as <-. destruct (z =? 0); cbn [In]; auto.
Qed.
End Run.

Section Edges.
Context {LA : lang}.
Variable Ins : Type.
Variable ilen : Ins -> Z.
Variable icls : Ins -> kind * Z.
Variable lf : nat -> Ins -> option (bool * Code LA).
Variable t : Z.

(** Does code (or a block ending with it) have an edge to [t]? basicblock.cc:72-99
    adds one predecessor per distinct successor block. *)
Definition hits (p : list Z) : nat := if existsb (Z.eqb t) p then 1 else 0.
Definition hit (l : Code LA) : nat := hits (cpc l []).
(** The addresses in the PC after the code of several instructions. *)
Definition seg_pcs (segs : list (seg Ins)) (p : list Z) : list Z := fold_left (fun p sg => cpc (snd sg) p) segs p.
Definition seg_edge (segs : list (seg Ins)) (e : bend) : nat :=
  match e with BBranch => hits (seg_pcs segs []) | _ => 0 end.
Definition block_edge (b : lblock Ins) : nat := seg_edge (lb_code _ b) (lb_end _ b).
Definition block_edges (bs : list (lblock Ins)) : nat := list_sum (map block_edge bs).

(** Every instruction sets the PC (each LiftInstruction starts with SetIP). *)
Definition sets_pc (l : Code LA) : Prop := forall p p', cpc l p = cpc l p'.

Lemma list_sum_cons : forall x l, list_sum (x :: l) = (x + list_sum l)%nat.
Proof. reflexivity. Qed.

Lemma lloop_edges : forall (w : dinst Ins -> nat) l i skip segs e bs,
  (forall n d ok code, In d l -> lf n (d_i _ d) = Some (ok, code) -> sets_pc code /\ (end_of Ins d code = BBranch -> (hit code <= w d)%nat)) ->
  lloop Ins lf i l skip = LFn (segs, e, bs) ->
  (skip = false -> match l with [] => True | d :: _ => d_new _ d = false -> segs <> [] /\ forall p p', seg_pcs segs p = seg_pcs segs p' end) /\
  (seg_edge segs e + block_edges bs <= list_sum (map w l))%nat.
Proof.
  intros w. induction l as [|d l IH]; intros i skip segs e bs W E; cbn [lloop] in E.
  - injection E as <- <- <-. split; [auto|]. cbn. lia.
  - assert (W' : forall n d0 ok code, In d0 l -> lf n (d_i _ d0) = Some (ok, code) -> sets_pc code /\ (end_of Ins d0 code = BBranch -> (hit code <= w d0)%nat)).
    { intros n d0 ok code I0. apply W. right. exact I0. }
    cbn [map]. rewrite list_sum_cons.
    destruct (skip && negb (d_new _ d)) eqn:SK.
    { destruct (IH _ _ _ _ _ W' E) as [_ X]. split; [|lia]. intros ->. discriminate. }
    destruct (d_new _ d && (d_start _ d =? 0)); [discriminate|]. destruct (negb (d_new _ d) && Nat.eqb i 0); [discriminate|].
    destruct (lf i (d_i _ d)) as [[ok code]|] eqn:L; [|discriminate].
    destruct (negb ok && Nat.eqb i 0); [discriminate|].
    destruct (lloop Ins lf (S i) l (negb ok)) as [| |[[segs0 e0] bs0]] eqn:R; try discriminate.
    destruct (IH _ _ _ _ _ W' R) as [X1 X2]. clear IH. cbv zeta in E.
    destruct (W i d ok code (or_introl eq_refl) L) as [SP HW].
    destruct (negb ok || last_of Ins l) eqn:FN; cbn [negb andb] in E.
    + assert (B : (seg_edge [(i, d, code)] (end_of Ins d code) <= w d)%nat).
      { unfold seg_edge. destruct (end_of Ins d code) eqn:EO; try lia. exact (HW eq_refl). }
      destruct (d_new _ d) eqn:NW; injection E as <- <- <-.
      * split; [intros _; congruence|]. unfold block_edges in *. cbn [map]. rewrite list_sum_cons.
        unfold block_edge at 1. cbn [lb_code lb_end]. change (seg_edge [] BBranch) with 0%nat. lia.
      * split; [intros _ _; split; [discriminate|]; intros p p'; apply SP|]. lia.
    + apply orb_false_elim in FN. destruct FN as [OK LO]. destruct ok; [|discriminate].
      destruct (cret code); [discriminate|].
      destruct l as [|d' l']; [discriminate|]. cbn [map] in *. cbn [last_of] in LO. cbn [negb] in X1. destruct (X1 eq_refl LO) as [NE SP0].
      assert (B : seg_edge ((i, d, code) :: segs0) e0 = seg_edge segs0 e0).
      { unfold seg_edge. destruct e0; try reflexivity. unfold seg_pcs in *. cbn [fold_left snd]. rewrite (SP0 (cpc code []) []). reflexivity. }
      destruct (d_new _ d) eqn:NW; injection E as <- <- <-.
      * split; [intros _; congruence|]. unfold block_edges in *. cbn [map]. rewrite list_sum_cons.
        unfold block_edge at 1. cbn [lb_code lb_end]. change (seg_edge [] BBranch) with 0%nat. rewrite B. lia.
      * split; [|rewrite B; lia]. intros _ _. split; [discriminate|]. intros p p'. unfold seg_pcs in *. cbn [fold_left snd]. apply SP0.
Qed.

Lemma lift_edges : forall (w : dinst Ins -> nat) ins a bs,
  (forall n d ok code, In d ins -> lf n (d_i _ d) = Some (ok, code) -> sets_pc code /\ (end_of Ins d code = BBranch -> (hit code <= w d)%nat)) ->
  lift Ins lf true ins = LFn (a, bs) -> (block_edges bs <= list_sum (map w ins))%nat.
Proof.
  intros w ins a bs W E. unfold lift in E. destruct ins as [|d l]; [discriminate|]. cbn [negb] in E.
  destruct (d_start _ d =? 0); [discriminate|]. destruct (lloop Ins lf 0 (d :: l) false) as [| |[[sg e] bs0]] eqn:R; try discriminate.
  injection E as _ <-. destruct (lloop_edges w _ _ _ _ _ _ W R) as [_ X]. lia.
Qed.
End Edges.
