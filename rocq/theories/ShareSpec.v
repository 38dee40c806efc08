(** What reference counting has to achieve, in terms of who refers to an object. *)
From Coq Require Import List ZArith Bool Lia Arith.
From Verif Require Import Base StringModel ListModel ShareModel.
Import ListNotations.
Local Open Scope nat_scope.

Definition occurrences (o : nat) (l : list nat) : nat := count_occ Nat.eq_dec l o.
(** How many references to [o] the live objects hold. *)
Definition held (h : mgr) (o : nat) : nat :=
  list_sum (map (fun p => match objs h p with Some ob => occurrences o (o_refs ob) | None => 0 end) (seq 0 (onext h))).

(** What the program knows: how many variables refer to each object, and the scope block in
    which it last lost its last reference (or was created). *)
Record ghost := mkghost { vars : nat -> nat; place : nat -> nat }.
Definition references (h : mgr) (g : ghost) (o : nat) : nat := vars g o + held h o.

Definition plus_var (g : ghost) (o : nat) := mkghost (upd1 (vars g) o (S (vars g o))) (place g).
Definition minus_var (g : ghost) (o : nat) := mkghost (upd1 (vars g) o (vars g o - 1)) (place g).
Definition placed (g : ghost) (o : nat) (b : option nat) :=
  match b with Some b => mkghost (vars g) (upd1 (place g) o b) | None => g end.
Definition gstep (a : op) (g : ghost) : ghost :=
  match a with
  | ONew _ => g
  | OCreate o b => placed g o (Some b)
  | OShare o => plus_var g o
  | OUnref o b => placed (minus_var g o) o b
  | OPut _ _ => g
  | OTake _ o b => placed g o b
  | OSweep _ _ => g
  | OPop _ vs _ => fold_left minus_var vs g
  end.

(** A counted object with fewer than 65535 references which, if it has none, waits in the
    list of the block it was created in. *)
Definition can_share (h : mgr) (g : ghost) (o : nat) : Prop :=
  exists ob n i, objs h o = Some ob /\ o_sp ob = Some n /\ nodes h n = Some i /\
    (Z.of_nat (references h g o) < 65535)%Z /\ (references h g o = 0 -> place g o = n_cr i).
Definition legal (a : op) (h : mgr) (g : ghost) : Prop :=
  match a with
  | ONew _ => True
  | OCreate o b => exists ob, objs h o = Some ob /\ o_const ob = false /\ o_sp ob = None
  | OShare o => can_share h g o
  | OUnref o b => 1 <= vars g o
  | OPut p o => can_share h g o /\ objs h p <> None
  | OTake p o b => p <> o /\ exists ob, objs h p = Some ob /\ In o (o_refs ob)
  | OSweep b ret => True
  | OPop b vs ret => forall o, occurrences o vs <= vars g o
  end.
Fixpoint legal_history (l : list op) (h : mgr) (g : ghost) : Prop :=
  match l with
  | [] => True
  | a :: l' => legal a h g /\ forall h', step a h = Ok h' -> legal_history l' h' (gstep a g)
  end.
Fixpoint run (l : list op) (h : mgr) : res mgr :=
  match l with [] => Ok h | a :: l' => do h1 <- step a h; run l' h1 end.
Definition no_ghost : ghost := mkghost (fun _ => 0) (fun _ => 0).

(** Object [o] waits in the list of block [b], found by following the links from the first. *)
Definition waits (h : mgr) (b o : nat) : Prop :=
  exists fuel l n i, walk_forward fuel (view h b) = Some l /\ In n l /\ nodes h n = Some i /\ n_obj i = o.

(** Reached from [o] by following references. *)
Inductive reach (h : mgr) : nat -> nat -> Prop :=
| reach_refl o : reach h o o
| reach_step o ob r p : objs h o = Some ob -> In r (o_refs ob) -> reach h r p -> reach h o p.

(** What the program knows after a history. *)
Definition ghost_after (l : list op) (g : ghost) : ghost := fold_left (fun g a => gstep a g) l g.
(** What can be observed after a history that runs. *)
Definition observe {A} (l : list op) (f : mgr -> A) : option A :=
  match run l empty with Ok h => Some (f h) | _ => None end.
Definition thrown {A} (r : res A) : bool := match r with Thr => true | _ => false end.
Definition count_of (h : mgr) (o : nat) : option Z :=
  match objs h o with
  | Some ob => match o_sp ob with Some n => match nodes h n with Some i => Some (n_sh i) | None => None end | None => None end
  | None => None
  end.
