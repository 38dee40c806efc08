(** Specification for Vector: mathematical lists. Independent of VectorModel's
    helpers (only the type of operations and observations is shared). *)
From Coq Require Import List ZArith Bool.
From Verif Require Import VectorModel.
Import ListNotations.
Open Scope Z_scope.

Section Spec.
Variable A : Type.

(** [holds v l]: a caller who inspects vector [v] sees exactly the sequence [l]:
    its length, and a value at each index below it. *)
Definition holds (v : vec A) (l : list A) : Prop :=
  length_of v = Z.of_nat (length l) /\
  forall i, 0 <= i < Z.of_nat (length l) ->
    exists x, nth_error l (Z.to_nat i) = Some x /\ get v i = Base.Ret v (Some x).

(** Sequence semantics of the operations; [None] when an index is not in range
    or an empty sequence is popped. Source vectors stand for the sequence they
    hold, given by [den]. *)
Definition seq_step (den : vec A -> list A) (o : vop A) (l : list A) : option (list A * vobs A) :=
  let inr i := (0 <=? i) && (i <? Z.of_nat (length l)) in
  let inr' i := (0 <=? i) && (i <=? Z.of_nat (length l)) in
  match o with
  | VPush x => Some (l ++ [x], ONone)
  | VPop => match l with [] => None | _ => Some (removelast l, ONone) end
  | VSet i x => if inr i then Some (firstn (Z.to_nat i) l ++ x :: skipn (Z.to_nat i + 1) l, ONone) else None
  | VGet i => if inr i then Some (l, OVal (nth_error l (Z.to_nat i))) else None
  | VInsert i x => if inr' i then Some (firstn (Z.to_nat i) l ++ x :: skipn (Z.to_nat i) l, ONone) else None
  | VErase i => if inr i then Some (firstn (Z.to_nat i) l ++ skipn (Z.to_nat i + 1) l, ONone) else None
  | VConcat s => Some (l ++ den s, ONone)
  | VInsertVec i s => if inr' i then Some (firstn (Z.to_nat i) l ++ den s ++ skipn (Z.to_nat i) l, ONone) else None
  | VClear => Some ([], ONone)
  | VLength => Some (l, OLen (Z.of_nat (length l)))
  end.

(** Run of a history; every intermediate sequence must stay shorter than [cap]. *)
Fixpoint seq_run (den : vec A -> list A) (cap : Z) (os : list (vop A)) (l : list A)
  : option (list A * list (vobs A)) :=
  match os with
  | [] => Some (l, [])
  | o :: r =>
    match seq_step den o l with
    | Some (l', x) =>
      if Z.of_nat (length l') <? cap then
        match seq_run den cap r l' with
        | Some (l'', xs) => Some (l'', x :: xs)
        | None => None
        end
      else None
    | None => None
    end
  end.

(** The sources used by [VConcat]/[VInsertVec] in a history. *)
Definition sources (os : list (vop A)) : list (vec A) :=
  flat_map (fun o => match o with VConcat s | VInsertVec _ s => [s] | _ => [] end) os.

End Spec.
Arguments holds {A}. Arguments seq_step {A}. Arguments seq_run {A}. Arguments sources {A}.
