(** What script arrays should do, on mathematical lists. *)
From Coq Require Import List ZArith Bool.
From Verif Require Import Base VectorModel ValueModel ValueSpec ArrayModel.
Import ListNotations.
Open Scope Z_scope.

(** Elements as a program sees them: not references to variables, not marked constant. *)
Definition plain (x : stk) : Prop :=
  In (props x) [P_UNDEFINED; P_NULL; P_INT; P_FLOAT; P_BOOL; P_TYPE; P_FUNCTION; P_OBJECT].

(** The arguments of an operation. *)
Definition args (o : aop) : list stk :=
  match o with APush _ x | ASet _ _ x | AInsert _ _ x => [x] | _ => [] end.

(** Sequences of one array; [None]: index not in range, no such array. *)
Definition get_at (l : list stk) (i : Z) : option stk :=
  if i <? 0 then None else nth_error l (Z.to_nat i).
Definition set_at (l : list stk) (i : Z) (x : stk) : option (list stk) :=
  match get_at l i with
  | Some _ => Some (firstn (Z.to_nat i) l ++ x :: skipn (Z.to_nat i + 1) l)
  | None => None
  end.
Definition insert_at (l : list stk) (i : Z) (x : stk) : option (list stk) :=
  if (0 <=? i) && (i <=? Z.of_nat (length l))
  then Some (firstn (Z.to_nat i) l ++ x :: skipn (Z.to_nat i) l) else None.
Definition erase_at (l : list stk) (i : Z) : option (list stk) :=
  match get_at l i with
  | Some _ => Some (firstn (Z.to_nat i) l ++ skipn (Z.to_nat i + 1) l)
  | None => None
  end.

Definition modify (ls : list (list stk)) (a : nat) (f : list stk -> option (list stk)) : option (list (list stk)) :=
  match nth_error ls a with
  | Some l => match f l with Some l' => Some (firstn a ls ++ l' :: skipn (a + 1) ls) | None => None end
  | None => None
  end.
Definition silent (r : option (list (list stk))) : option (list (list stk) * aobs) :=
  match r with Some ls => Some (ls, ONothing) | None => None end.

(** All arrays: a list of sequences. *)
Definition seqs_step (o : aop) (ls : list (list stk)) : option (list (list stk) * aobs) :=
  match o with
  | ANew => Some (ls ++ [[]], ONothing)
  | APush a x => silent (modify ls a (fun l => Some (l ++ [x])))
  | APop a =>
      match nth_error ls a with
      | Some l =>
          match rev l with
          | x :: _ => match modify ls a (fun l => Some (removelast l)) with
                      | Some ls' => Some (ls', OElem x) | None => None end
          | [] => None
          end
      | None => None
      end
  | AGet a i =>
      match nth_error ls a with
      | Some l => match get_at l i with Some x => Some (ls, OElem x) | None => None end
      | None => None
      end
  | ASet a i x => silent (modify ls a (fun l => set_at l i x))
  | AInsert a z x => silent (modify ls a (fun l => insert_at l z x))
  | AErase a z => silent (modify ls a (fun l => erase_at l z))
  | AClear a => silent (modify ls a (fun _ => Some []))
  | AExtend a b =>
      if Nat.eqb a b then None else
      match nth_error ls b with
      | Some lb => silent (modify ls a (fun l => Some (l ++ lb)))
      | None => None
      end
  | AConcat a b =>
      match nth_error ls a, nth_error ls b with
      | Some la, Some lb => Some (ls ++ [la ++ lb], ONothing)
      | _, _ => None
      end
  | ALength a =>
      match nth_error ls a with
      | Some l => Some (ls, OLength (Z.of_nat (length l)))
      | None => None
      end
  end.
(** A history; no array ever reaches [cap] elements. *)
Fixpoint seqs_run (cap : Z) (os : list aop) (ls : list (list stk)) : option (list (list stk) * list aobs) :=
  match os with
  | [] => Some (ls, [])
  | o :: r =>
      match seqs_step o ls with
      | Some (ls', x) =>
          if forallb (fun l => Z.of_nat (length l) <? cap) ls' then
            match seqs_run cap r ls' with
            | Some (ls'', xs) => Some (ls'', x :: xs)
            | None => None
            end
          else None
      | None => None
      end
  end.

(** [shows w a l]: inspecting array [a] of [w] shows the sequence [l]. *)
Definition shows (w : world) (a : nat) (l : list stk) : Prop :=
  exists v, nth_error (warrs w) a = Some v /\ count v = Z.of_nat (length l) /\
    forall i, 0 <= i < Z.of_nat (length l) ->
      exists x, nth_error l (Z.to_nat i) = Some x /\ a_get (mka (wmem w) v) i = Ret (mka (wmem w) v) x.

(** The language's [==] says yes. *)
Definition lang_equal (h : heap) (text : stk -> list Z) (x y : stk) : Prop :=
  op_cmp h text CEq x y = Push (Stk 1 P_BOOL).
