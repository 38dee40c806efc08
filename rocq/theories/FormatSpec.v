(** Vocabulary for C64. *)
From Coq Require Import List ZArith Bool.
From Verif Require Import Base StringModel IntegerSpec FormatModel.
Import ListNotations.
Open Scope Z_scope.

(** [t] is the text of the argument under the format [f]: the decimal text of an integer, with
    zeros in front under the format d<k>. *)
Inductive shown : farg -> list Z -> list Z -> Prop :=
| sh_text l f : Forall (fun c => c <> 0) l -> shown (FText l) f l
| sh_int n l : 0 <= n <= 6755399441055748 -> decimal n l -> shown (FInt n) [] l
| sh_neg n l : -6755399441055748 <= n < 0 -> decimal (- n) l -> shown (FInt n) [] (45 :: l)
| sh_pad n w k l z : 0 <= n <= 6755399441055748 -> w <> [] -> writes 10 w k -> k < 2147483648 -> zlen w < 32767 ->
    decimal n l -> zlen z = Z.max 0 (k - zlen l) -> Forall (eq 48) z ->
    shown (FInt n) (100 :: w) (z ++ l).

(** A format text is made of pieces: text without opening brace and placeholders
    {index[,width][:format]}. *)
Inductive piece :=
| PText (l : list Z)
| PArg (idx : list Z) (w : option (list Z)) (f : option (list Z)).
Definition lead (c : Z) (o : option (list Z)) : list Z := match o with Some l => c :: l | None => [] end.
Definition ptext (p : piece) : list Z :=
  match p with
  | PText l => l
  | PArg idx w f => [123] ++ idx ++ lead 44 w ++ lead 58 f ++ [125]
  end.
(** Decimal digits of a number below 2^31. *)
Definition number (l : list Z) (n : Z) : Prop := l <> [] /\ writes 10 l n /\ n < 2147483648.

(** [t] moved to the right in a field of [n] characters. *)
Definition in_field (n : Z) (t r : list Z) : Prop :=
  exists z, r = z ++ t /\ Forall (eq 32) z /\ zlen z = Z.max 0 (n - zlen t).

(** [puts args p r]: what stands in the result for the piece [p]. *)
Inductive puts (args : list farg) : piece -> list Z -> Prop :=
| pu_text l : ~ In 123 l -> puts args (PText l) l
| pu_arg idx i f a t : number idx i -> nth_error args (Z.to_nat i) = Some a ->
    ~ In 125 (lead 58 f) -> ~ In 44 (lead 58 f) -> shown a (tl (lead 58 f)) t ->
    puts args (PArg idx None f) t
| pu_pad idx i w n f a t r : number idx i -> nth_error args (Z.to_nat i) = Some a -> number w n ->
    ~ In 125 (lead 58 f) -> shown a (tl (lead 58 f)) t -> in_field n t r ->
    puts args (PArg idx (Some w) f) r
| pu_out idx i w f : number idx i -> Z.of_nat (length args) <= i ->
    ~ In 58 (lead 44 w) -> ~ In 125 (lead 44 w ++ lead 58 f) -> (w = None -> ~ In 44 (lead 58 f)) ->
    puts args (PArg idx w f) (ptext (PArg idx w f)).

(** The end of a format text: no placeholder in it. *)
Definition no_place (r : list Z) : Prop := forall a b, r = a ++ 123 :: b -> ~ In 125 b.
