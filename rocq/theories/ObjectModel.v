(** Model of script objects, /repo/src/core/object/ObjectScriptObject.cpp and
    ObjectScriptObjectZs.cpp, on top of the model of [MapString] (MapModel.v) and of the blocks
    holding stack elements (ArrayModel.v).

    An object is a map from names to pointers to stack elements, each in its own block.
    Simplifications, besides the ones of ArrayModel.v: names hold no NUL byte; the object type has
    no member properties (ScriptTypesFactory.cpp:342-350), so [map_builtin_fields] is empty and the
    questions about it are left out. ZS_MALLOC clears the block; the cleared element is never read
    and stands here as the undefined one. A loop over the fields of a map that the body does not
    change is modelled as collecting the fields first. *)
From Coq Require Import List ZArith Bool.
From Verif Require Import Base MapModel VectorModel ValueModel ArrayModel.
Import ListNotations.
Open Scope Z_scope.

Definition fields := map (list Z) nat.
(** One object in memory. *)
Record ost := mko { omem : blocks; flds : fields }.
Definition olift {A} (m : blocks) (r : outcome fields A) : outcome ost A :=
  match r with Ret v a => Ret (mko m v) a | Exc v => Exc (mko m v) | Undef => Undef end.
(** [*p], [*p = x] and freeing [p] *)
Definition o_load (s : ost) (p : nat) : outcome ost stk :=
  match load (omem s) p with Some x => Ret s x | None => Undef end.
Definition o_store (s : ost) (p : nat) (x : stk) : outcome ost unit :=
  match load (omem s) p with
  | Some _ => Ret (mko (upd (omem s) p (Some x)) (flds s)) tt
  | None => Undef
  end.
Definition o_free (s : ost) (p : nat) : outcome ost unit :=
  match load (omem s) p with
  | Some _ => Ret (mko (upd (omem s) p None) (flds s)) tt
  | None => Undef
  end.

(** setStackElementByKeyName, ObjectScriptObject.cpp:57-87: the slot of the field, found or made *)
Definition o_slot (s : ost) (k : list Z) : outcome ost nat :=
  match m_get strcmp (flds s) k with
  | Ret _ (Some p) => Ret s p
  | Ret _ None =>
      let p := length (omem s) in
      bind (olift (omem s ++ [Some k_undefined]) (str_set (flds s) k p)) (fun s _ => Ret s p)
  | Exc _ => Exc s
  | Undef => Undef
  end.
Definition o_set (var : Z -> stk) (s : ost) (k : list Z) (x : stk) : outcome ost unit :=
  bind (o_slot s k) (fun s p => o_store s p (stored var x)).

(** getStackElementByKeyName, ObjectScriptObject.cpp:89-101, and the element read through it; a
    missing field is read as undefined (vm_container.cpp:219-223) *)
Definition o_get (s : ost) (k : list Z) : outcome ost stk :=
  match m_get strcmp (flds s) k with
  | Ret _ (Some p) => o_load s p
  | Ret _ None => Ret s k_undefined
  | Exc _ => Exc s
  | Undef => Undef
  end.
(** exists, ObjectScriptObject.cpp:103-108 *)
Definition o_exists (s : ost) (k : list Z) : outcome ost bool := olift (omem s) (m_exist strcmp (flds s) k).
(** length, ObjectScriptObject.cpp:114-116 *)
Definition o_length (s : ost) : Z := m_count (flds s).
(** getKeys, ObjectScriptObject.cpp:118-124; ObjectScriptObjectZs_keys, ObjectScriptObjectZs.cpp:9-29 *)
Definition o_keys (s : ost) : outcome ost (list (list Z)) :=
  bind (olift (omem s) (m_iterate (flds s))) (fun s l => Ret s (List.map fst l)).

(** erase, ObjectScriptObject.cpp:126-137; a missing field sets the user error and changes nothing *)
Definition o_erase (s : ost) (k : list Z) : outcome ost unit :=
  match m_get strcmp (flds s) k with
  | Ret _ (Some p) =>
      bind (olift (omem s) (m_erase strcmp (fun n => n) (flds s) k)) (fun s _ => o_free s p)
  | Ret _ None => Exc s
  | Exc _ => Exc s
  | Undef => Undef
  end.
(** eraseAll, ObjectScriptObject.cpp:139-146 *)
Fixpoint o_free_all (ps : list nat) (s : ost) : outcome ost unit :=
  match ps with
  | [] => Ret s tt
  | p :: r => bind (o_free s p) (fun s _ => o_free_all r s)
  end.
Definition o_clear (s : ost) : outcome ost unit :=
  bind (olift (omem s) (m_iterate (flds s))) (fun s l =>
  bind (o_free_all (List.map snd l) s) (fun s _ => Ret (mko (omem s) (m_clear (flds s))) tt)).

(** append, ObjectScriptObject.cpp:35-44, and each half of concat, 17-33: [src] is the map of an
    object in the same memory. The body changes [src] only when it is the object itself, and then
    no field is new. *)
Fixpoint o_put_all (var : Z -> stk) (l : list (list Z * nat)) (s : ost) : outcome ost unit :=
  match l with
  | [] => Ret s tt
  | (k, p) :: r =>
      bind (o_load s p) (fun s x => bind (o_set var s k x) (fun s _ => o_put_all var r s))
  end.
Definition o_append (var : Z -> stk) (s : ost) (src : fields) : outcome ost unit :=
  match m_iterate src with
  | Ret _ l => o_put_all var l s
  | Exc _ => Exc s
  | Undef => Undef
  end.

(** ** All objects of a program, in one memory *)
Record oworld := mkow { owmem : blocks; wobjs : list fields }.
Inductive oop :=
| ONew                                      (* {} *)
| OSet (a : nat) (k : list Z) (x : stk)     (* a[k]=x *)
| OGet (a : nat) (k : list Z)               (* a[k] *)
| OContains (a : nat) (k : list Z)          (* a.contains(k) *)
| OErase (a : nat) (k : list Z)             (* a.erase(k) *)
| OClear (a : nat)                          (* a.clear() *)
| OExtend (a b : nat)                       (* a.extend(b) *)
| OConcat (a b : nat)                       (* a+b: a new object *)
| OKeys (a : nat).                          (* a.keys() *)
Inductive oobs := ObElem (x : stk) | ObBool (b : bool) | ObKeys (l : list (list Z)) | ObNothing.

Definition oon {A} (w : oworld) (a : nat) (f : ost -> outcome ost A) : outcome oworld A :=
  match nth_error (wobjs w) a with
  | None => Undef
  | Some v =>
      match f (mko (owmem w) v) with
      | Ret s x => Ret (mkow (omem s) (upd (wobjs w) a (flds s))) x
      | Exc s => Exc (mkow (omem s) (upd (wobjs w) a (flds s)))
      | Undef => Undef
      end
  end.
Definition oquiet (r : outcome oworld unit) : outcome oworld oobs := bind r (fun w _ => Ret w ObNothing).
Definition ostep (var : Z -> stk) (o : oop) (w : oworld) : outcome oworld oobs :=
  match o with
  | ONew => Ret (mkow (owmem w) (wobjs w ++ [m_empty])) ObNothing
  | OSet a k x => oquiet (oon w a (fun s => o_set var s k x))
  | OGet a k => bind (oon w a (fun s => o_get s k)) (fun w x => Ret w (ObElem x))
  | OContains a k => bind (oon w a (fun s => o_exists s k)) (fun w b => Ret w (ObBool b))
  | OErase a k => oquiet (oon w a (fun s => o_erase s k))
  | OClear a => oquiet (oon w a o_clear)
  | OExtend a b =>
      match nth_error (wobjs w) b with
      | Some vb => oquiet (oon w a (fun s => o_append var s vb))
      | None => Undef
      end
  | OConcat a b =>
      match nth_error (wobjs w) a, nth_error (wobjs w) b with
      | Some va, Some vb =>
          oquiet (oon (mkow (owmem w) (wobjs w ++ [m_empty])) (length (wobjs w))
            (fun s => bind (o_append var s va) (fun s _ => o_append var s vb)))
      | _, _ => Undef
      end
  | OKeys a => bind (oon w a o_keys) (fun w l => Ret w (ObKeys l))
  end.
(** A program goes on after a script error only if it caught it; [orun] stops at the first one. *)
Fixpoint orun (var : Z -> stk) (os : list oop) (w : oworld) : outcome oworld (list oobs) :=
  match os with
  | [] => Ret w []
  | o :: r => bind (ostep var o w) (fun w x => bind (orun var r w) (fun w xs => Ret w (x :: xs)))
  end.
Definition ow_empty : oworld := mkow [] [].
