(** What script objects should do: finite maps that remember the order in which the names came. *)
From Coq Require Import List ZArith Bool.
From Verif Require Import Base MapModel ValueModel ArrayModel ArraySpec ObjectModel.
Import ListNotations.
Open Scope Z_scope.

(** One object: a list of named values, names distinct. *)
Definition obj := list (list Z * stk).
Definition same (a b : list Z) : bool := if list_eq_dec Z.eq_dec a b then true else false.
Definition field (l : obj) (k : list Z) : option stk :=
  option_map snd (find (fun e => same (fst e) k) l).
(** A present name keeps its place; a new one comes last. *)
Definition with_field (l : obj) (k : list Z) (x : stk) : obj :=
  match field l k with
  | Some _ => List.map (fun e => if same (fst e) k then (k, x) else e) l
  | None => l ++ [(k, x)]
  end.
Definition without (l : obj) (k : list Z) : obj := filter (fun e => negb (same (fst e) k)) l.
(** The fields of [b] over the ones of [a]. *)
Definition over (a b : obj) : obj := fold_left (fun l e => with_field l (fst e) (snd e)) b a.

Definition oargs (o : oop) : list stk := match o with OSet _ _ x => [x] | _ => [] end.
Definition omodify (ls : list obj) (a : nat) (f : obj -> option obj) : option (list obj * oobs) :=
  match nth_error ls a with
  | Some l => match f l with Some l' => Some (firstn a ls ++ l' :: skipn (a + 1) ls, ObNothing) | None => None end
  | None => None
  end.
Definition oask (ls : list obj) (a : nat) (f : obj -> oobs) : option (list obj * oobs) :=
  match nth_error ls a with Some l => Some (ls, f l) | None => None end.
Definition objs_step (o : oop) (ls : list obj) : option (list obj * oobs) :=
  match o with
  | ONew => Some (ls ++ [[]], ObNothing)
  | OSet a k x => omodify ls a (fun l => Some (with_field l k x))
  | OGet a k => oask ls a (fun l => ObElem (match field l k with Some x => x | None => Stk 0 P_UNDEFINED end))
  | OContains a k => oask ls a (fun l => ObBool (match field l k with Some _ => true | None => false end))
  | OErase a k => omodify ls a (fun l => match field l k with Some _ => Some (without l k) | None => None end)
  | OClear a => omodify ls a (fun _ => Some [])
  | OExtend a b => match nth_error ls b with Some lb => omodify ls a (fun l => Some (over l lb)) | None => None end
  | OConcat a b =>
      match nth_error ls a, nth_error ls b with
      | Some la, Some lb => Some (ls ++ [over la lb], ObNothing)
      | _, _ => None
      end
  | OKeys a => oask ls a (fun l => ObKeys (List.map fst l))
  end.
(** A history; no object ever has more than [cap] fields. *)
Fixpoint objs_run (cap : Z) (os : list oop) (ls : list obj) : option (list obj * list oobs) :=
  match os with
  | [] => Some (ls, [])
  | o :: r =>
      match objs_step o ls with
      | Some (ls', x) =>
          if forallb (fun l => Z.of_nat (length l) <=? cap) ls' then
            match objs_run cap r ls' with Some (ls'', xs) => Some (ls'', x :: xs) | None => None end
          else None
      | None => None
      end
  end.

(** [oshows w a l]: inspecting object [a] of [w] shows the fields [l]. *)
Definition oshows (w : oworld) (a : nat) (l : obj) : Prop :=
  exists v, nth_error (wobjs w) a = Some v /\ o_length (mko (owmem w) v) = Z.of_nat (length l) /\
    o_keys (mko (owmem w) v) = Ret (mko (owmem w) v) (List.map fst l) /\
    forall k, o_exists (mko (owmem w) v) k = Ret (mko (owmem w) v) (match field l k with Some _ => true | None => false end) /\
      o_get (mko (owmem w) v) k = Ret (mko (owmem w) v) (match field l k with Some x => x | None => Stk 0 P_UNDEFINED end).
