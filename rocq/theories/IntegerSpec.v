(** Specification vocabulary: positional notation. *)
From Coq Require Import List ZArith Bool.
Import ListNotations.
Open Scope Z_scope.

(** [c] is the character of digit [v] in a base up to 16. *)
Definition digit_of (v c : Z) : Prop :=
  (0 <= v <= 9 /\ c = 48 + v) \/ (10 <= v <= 15 /\ (c = 87 + v \/ c = 55 + v)).

(** [l] writes [v] in the given base, most significant digit first. *)
Inductive writes (base : Z) : list Z -> Z -> Prop :=
| w_nil : writes base [] 0
| w_snoc l v c d : writes base l v -> digit_of d c -> d < base -> writes base (l ++ [c]) (v * base + d).

(** Usual decimal text of a number: no superfluous leading zero. *)
Definition decimal (n : Z) (l : list Z) : Prop :=
  l <> [] /\ writes 10 l n /\ (l = [48] \/ hd 0 l <> 48).
