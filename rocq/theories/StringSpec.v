(** Specification vocabulary for strings: plain lists of characters. *)
From Coq Require Import List ZArith Bool.
Import ListNotations.
Open Scope Z_scope.

(** [p] occurs in [l] at position [i]. *)
Definition occurs_at (p l : list Z) (i : nat) : Prop :=
  exists a b, l = a ++ p ++ b /\ length a = i.

Definition occurs (p l : list Z) : Prop := exists i, occurs_at p l i.

(** Joining with a separator. *)
Fixpoint join (sep : list Z) (ls : list (list Z)) : list Z :=
  match ls with
  | [] => []
  | [x] => x
  | x :: r => x ++ sep ++ join sep r
  end.

(** [r] is [l] with every occurrence of [old], found left to right without overlap,
    replaced by [new]. *)
Inductive replaced (old new : list Z) : list Z -> list Z -> Prop :=
| rp_none l : ~ occurs old l -> replaced old new l l
| rp_first a b b' :
    (forall i, (i < length a)%nat -> ~ occurs_at old (a ++ old ++ b) i) ->
    replaced old new b b' ->
    replaced old new (a ++ old ++ b) (a ++ new ++ b').

(** Escaping as written in source text: newline, tab, both quotes and the backslash. *)
Definition escape1 (c : Z) : list Z :=
  if c =? 10 then [92; 110]
  else if c =? 9 then [92; 116]
  else if c =? 34 then [92; 34]
  else if c =? 39 then [92; 39]
  else if c =? 92 then [92; 92]
  else [c].
Definition escape (l : list Z) : list Z := flat_map escape1 l.

Definition is_upper (c : Z) : Prop := 65 <= c <= 90.
Definition is_lower (c : Z) : Prop := 97 <= c <= 122.

(** Characters of a C string. *)
Definition nonul (l : list Z) : Prop := Forall (fun c => c <> 0) l.

(** [r] is the piece of [l] from position [i] to position [j], both included. *)
Definition slice (l : list Z) (i j : Z) (r : list Z) : Prop :=
  Z.of_nat (length r) = j - i + 1 /\
  forall k, i <= k <= j -> nth_error r (Z.to_nat (k - i)) = nth_error l (Z.to_nat k).

(** The pieces of [l] cut at each first occurrence of [d]. *)
Inductive tokens (d : list Z) : list Z -> list (list Z) -> Prop :=
| tok_last l : ~ occurs d l -> tokens d l [l]
| tok_next a b ls :
    (forall i, (i < length a)%nat -> ~ occurs_at d (a ++ d ++ b) i) -> tokens d b ls ->
    tokens d (a ++ d ++ b) (a :: ls).
