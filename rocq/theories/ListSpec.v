(** Specification for the linked list: the sequence of attached nodes. *)
From Coq Require Import List Arith Bool.
From Verif Require Import ListModel.
Import ListNotations.

Definition attached (n : nat) (l : list nat) : bool := existsb (Nat.eqb n) l.

Fixpoint seq_lrun (os : list lop) (l : list nat) : list nat * list bool :=
  match os with
  | [] => (l, [])
  | LInsert n :: r =>
    if attached n l then let (l', bs) := seq_lrun r l in (l', false :: bs)
    else let (l', bs) := seq_lrun r (l ++ [n]) in (l', true :: bs)
  | LRemove n :: r =>
    if attached n l then
      let (l', bs) := seq_lrun r (filter (fun m => negb (Nat.eqb n m)) l) in (l', true :: bs)
    else let (l', bs) := seq_lrun r l in (l', false :: bs)
  end.
