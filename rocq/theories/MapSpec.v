(** Specification of the maps: an insertion-ordered association list with distinct keys.
    Independent of sorted tables and linked nodes. *)
From Coq Require Import List ZArith Bool.
From Verif Require Import MapModel.
Import ListNotations.
Open Scope Z_scope.

Section Spec.
Variables K V : Type.
Variable eqk : K -> K -> bool.

Fixpoint lookup (k : K) (l : list (K * V)) : option V :=
  match l with
  | [] => None
  | (k', v) :: r => if eqk k' k then Some v else lookup k r
  end.

(** Overwrite in place, or append. *)
Fixpoint put (k : K) (v : V) (l : list (K * V)) : list (K * V) :=
  match l with
  | [] => [(k, v)]
  | (k', v') :: r => if eqk k' k then (k', v) :: r else (k', v') :: put k v r
  end.

Fixpoint del (k : K) (l : list (K * V)) : list (K * V) :=
  match l with
  | [] => []
  | (k', v') :: r => if eqk k' k then r else (k', v') :: del k r
  end.

Definition present k l := match lookup k l with Some _ => true | None => false end.

Definition spec_step (o : mop K V) (l : list (K * V)) : list (K * V) * mobs K V :=
  match o with
  | MSet k v => (put k v l, ODone)
  | MGet k => (l, OGot (lookup k l))
  | MExist k => (l, OBool (present k l))
  | MErase k => if present k l then (del k l, ODone) else (l, OFail)
  | MCount => (l, OCount (Z.of_nat (length l)))
  | MIterate => (l, OItems l)
  | MClear => ([], ODone)
  end.

(** [None] when a map would get more than [cap] entries. *)
Fixpoint spec_run (cap : Z) (os : list (mop K V)) (l : list (K * V))
  : option (list (K * V) * list (mobs K V)) :=
  match os with
  | [] => Some (l, [])
  | o :: r =>
    let (l', x) := spec_step o l in
    if Z.of_nat (length l') <=? cap then
      match spec_run cap r l' with
      | Some (l'', xs) => Some (l'', x :: xs)
      | None => None
      end
    else None
  end.
End Spec.
Arguments lookup {K V}. Arguments put {K V}. Arguments del {K V}. Arguments present {K V}.
Arguments spec_step {K V}. Arguments spec_run {K V}.
