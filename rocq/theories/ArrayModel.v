(** Model of script arrays, /repo/src/core/object/ArrayScriptObject.cpp and
    ArrayScriptObjectZs.cpp, on top of the model of [Vector] (VectorModel.v).

    An array is a vector of pointers to stack elements, each in its own [malloc] block.
    Memory is a list of blocks, [None] being a freed one; using a freed block, or a pointer
    read from a cell of the vector that was never written, is undefined behaviour.

    Simplifications: [malloc] never fails and never hands out a freed address again; reference
    counts of objects held by the elements are not here (ShareModel.v); the copy made of a constant
    string stands for the same object, having the same text; elements are not container slots.
    A script error set with ZS_VM_SET_USER_ERROR is reported when the native function is left,
    so an operation ending with one is [Exc] with the state left behind. The conversion of
    zs_int to int keeps the low 32 bits (what the supported compilers do). *)
From Coq Require Import List ZArith Bool.
From Verif Require Import Base VectorModel ValueModel.
Import ListNotations.
Open Scope Z_scope.

(** Blocks allocated for stack elements. *)
Definition blocks := list (option stk).
Definition load (m : blocks) (p : nat) : option stk :=
  match nth_error m p with Some (Some s) => Some s | _ => None end.

(** One array in memory. *)
Record ast := mka { mem : blocks; arr : vec nat }.
(** A vector operation inside an array, memory being [m]. *)
Definition lift {A} (m : blocks) (r : outcome (vec nat) A) : outcome ast A :=
  match r with Ret v a => Ret (mka m v) a | Exc v => Exc (mka m v) | Undef => Undef end.
(** The user error set before the rest ran. *)
Definition flagged {A} (r : outcome ast A) : outcome ast A :=
  match r with Ret s _ => Exc s | r => r end.

(** Conversion of a zs_int argument to the int parameter. *)
Definition to_int (z : Z) : Z := (z + 2 ^ 31) mod 2 ^ 32 - 2 ^ 31.

(** ScriptEngine::stackElementAssign, /repo/src/ScriptEngine.cpp:464-497: the element stored when
    [s] is assigned; [var] gives the element a reference to a variable points to. *)
Definition stored (var : Z -> stk) (s : stk) : stk :=
  let d := if has (props s) P_PTR_STK then var (val s) else s in
  let p := Z.ldiff (props d) P_READ_ONLY in
  Stk (val d) (if has p P_OBJECT then P_OBJECT else p).

(** [stk_elements.get(i)] as a pointer that is going to be used *)
Definition a_ptr (s : ast) (i : Z) : outcome ast nat :=
  match get (arr s) i with
  | Ret _ (Some p) => Ret s p
  | Ret _ None => Undef
  | Exc _ => Exc s
  | Undef => Undef
  end.
Definition a_load (s : ast) (p : nat) : outcome ast stk :=
  match load (mem s) p with Some x => Ret s x | None => Undef end.

(** ArrayScriptObject::newSlot, ArrayScriptObject.cpp:98-103 *)
Definition k_undefined : stk := Stk 0 P_UNDEFINED.
Definition a_newSlot (s : ast) : outcome ast nat :=
  let p := length (mem s) in
  bind (lift (mem s ++ [Some k_undefined]) (push (arr s) p)) (fun s _ => Ret s p).
(** [*p = x] *)
Definition a_store (s : ast) (p : nat) (x : stk) : outcome ast unit :=
  match load (mem s) p with
  | Some _ => Ret (mka (upd (mem s) p (Some x)) (arr s)) tt
  | None => Undef
  end.
(** pushStackElement, ArrayScriptObject.cpp:105-107 *)
Definition a_push (var : Z -> stk) (s : ast) (x : stk) : outcome ast unit :=
  bind (a_newSlot s) (fun s p => a_store s p (stored var x)).

(** getStackElementByIndex, ArrayScriptObject.cpp:64-71, and the element read through it *)
Definition a_get (s : ast) (i : Z) : outcome ast stk :=
  if count (arr s) <=? i then Exc s else bind (a_ptr s i) a_load.
(** setStackElementByIndex, ArrayScriptObject.cpp:49-61 *)
Definition a_set (var : Z -> stk) (s : ast) (i : Z) (x : stk) : outcome ast unit :=
  if count (arr s) <=? i then Exc s
  else bind (a_ptr s i) (fun s p => a_store s p (stored var x)).

(** unrefAndFreeStackElementContainer, ScriptObject.cpp:76-79 *)
Definition a_free (s : ast) (p : nat) : outcome ast unit :=
  match load (mem s) p with
  | Some _ => Ret (mka (upd (mem s) p None) (arr s)) tt
  | None => Undef
  end.
(** eraseElementAt, ArrayScriptObject.cpp:73-89: the error is set, and the erasing goes on *)
Definition a_eraseElementAt (s : ast) (i : Z) : outcome ast unit :=
  let r := bind (a_ptr s i) (fun s p =>
           bind (a_free s p) (fun s _ => lift (mem s) (erase (arr s) i))) in
  if count (arr s) <=? i then flagged r else r.
(** ArrayScriptObjectZs_eraseAt, ArrayScriptObjectZs.cpp:33-36 *)
Definition a_eraseAt (s : ast) (z : Z) : outcome ast unit := a_eraseElementAt s (to_int z).

(** ArrayScriptObjectZs_insertAt, ArrayScriptObjectZs.cpp:24-31 *)
Definition a_insertAt (var : Z -> stk) (s : ast) (z : Z) (x : stk) : outcome ast unit :=
  let p := length (mem s) in
  lift (mem s ++ [Some (stored var x)]) (insert (arr s) (to_int z) p).

(** pop, ArrayScriptObject.cpp:113-124; the result is the element pushed on the stack *)
Definition a_pop (s : ast) : outcome ast stk :=
  let i := count (arr s) - 1 in
  bind (bind (a_ptr s i) a_load) (fun s x => bind (a_eraseElementAt s i) (fun s _ => Ret s x)).

(** eraseAllElements, ArrayScriptObject.cpp:91-96 *)
Fixpoint a_free_from (n : nat) (i : Z) (s : ast) : outcome ast unit :=
  match n with
  | O => Ret s tt
  | S n' => bind (bind (a_ptr s i) a_free) (fun s _ => a_free_from n' (i + 1) s)
  end.
Definition a_clear (s : ast) : outcome ast unit :=
  bind (a_free_from (Z.to_nat (count (arr s))) 0 s) (fun s _ => Ret (mka (mem s) (clear (arr s))) tt).

(** concat, ArrayScriptObject.cpp:126-130, [src] being the vector of another array in the same
    memory: its length does not change in the loop. *)
Fixpoint a_concat_from (var : Z -> stk) (src : vec nat) (n : nat) (i : Z) (s : ast) : outcome ast unit :=
  match n with
  | O => Ret s tt
  | S n' =>
      bind (a_ptr (mka (mem s) src) i) (fun t p =>
      bind (a_load t p) (fun _ x =>
      bind (a_push var s x) (fun s _ => a_concat_from var src n' (i + 1) s)))
  end.
Definition a_concat (var : Z -> stk) (s : ast) (src : vec nat) : outcome ast unit :=
  a_concat_from var src (Z.to_nat (count src)) 0 s.
(** The same loop with [_v == this]: every round reads the current length. [None]: the given
    number of rounds is not enough. *)
Fixpoint a_concat_self (var : Z -> stk) (fuel : nat) (i : Z) (s : ast) : option (outcome ast unit) :=
  if count (arr s) <=? i then Some (Ret s tt)
  else
    match fuel with
    | O => None
    | S f =>
        match bind (bind (a_ptr s i) a_load) (fun s x => a_push var s x) with
        | Ret s' _ => a_concat_self var f (i + 1) s'
        | Exc s' => Some (Exc s')
        | Undef => Some Undef
        end
    end.

(** ** All arrays of a program, in one memory *)
Record world := mkw { wmem : blocks; warrs : list (vec nat) }.

Inductive aop :=
| ANew                                (* a new empty array *)
| APush (a : nat) (x : stk)           (* a.push(x) *)
| APop (a : nat)                      (* a.pop() *)
| AGet (a : nat) (i : Z)              (* a[i] *)
| ASet (a : nat) (i : Z) (x : stk)    (* a[i]=x *)
| AInsert (a : nat) (z : Z) (x : stk) (* a.insertAt(z,x) *)
| AErase (a : nat) (z : Z)            (* a.eraseAt(z) *)
| AClear (a : nat)                    (* a.clear() *)
| AExtend (a b : nat)                 (* a.extend(b), two different arrays *)
| AConcat (a b : nat)                 (* a+b: a new array *)
| ALength (a : nat).                  (* a.length *)
Inductive aobs := OElem (x : stk) | OLength (n : Z) | ONothing.

(** An operation on array [a] of a world. *)
Definition on {A} (w : world) (a : nat) (f : ast -> outcome ast A) : outcome world A :=
  match nth_error (warrs w) a with
  | None => Undef
  | Some v =>
      match f (mka (wmem w) v) with
      | Ret s x => Ret (mkw (mem s) (upd (warrs w) a (arr s))) x
      | Exc s => Exc (mkw (mem s) (upd (warrs w) a (arr s)))
      | Undef => Undef
      end
  end.
Definition wquiet (r : outcome world unit) : outcome world aobs :=
  bind r (fun w _ => Ret w ONothing).
Definition astep (var : Z -> stk) (o : aop) (w : world) : outcome world aobs :=
  match o with
  | ANew => Ret (mkw (wmem w) (warrs w ++ [v_empty])) ONothing
  | APush a x => wquiet (on w a (fun s => a_push var s x))
  | APop a => bind (on w a a_pop) (fun w x => Ret w (OElem x))
  | AGet a i => bind (on w a (fun s => a_get s i)) (fun w x => Ret w (OElem x))
  | ASet a i x => wquiet (on w a (fun s => a_set var s i x))
  | AInsert a z x => wquiet (on w a (fun s => a_insertAt var s z x))
  | AErase a z => wquiet (on w a (fun s => a_eraseAt s z))
  | AClear a => wquiet (on w a a_clear)
  | AExtend a b =>
      match nth_error (warrs w) b with
      | Some vb => wquiet (on w a (fun s => a_concat var s vb))
      | None => Undef
      end
  | AConcat a b =>
      (* ArrayScriptObject::concat, ArrayScriptObject.cpp:17-28 *)
      match nth_error (warrs w) a, nth_error (warrs w) b with
      | Some va, Some vb =>
          wquiet (on (mkw (wmem w) (warrs w ++ [v_empty])) (length (warrs w))
            (fun s => bind (a_concat var s va) (fun s _ => a_concat var s vb)))
      | _, _ => Undef
      end
  | ALength a =>
      match nth_error (warrs w) a with
      | Some v => Ret w (OLength (count v))
      | None => Undef
      end
  end.
Fixpoint arun (var : Z -> stk) (os : list aop) (w : world) : outcome world (list aobs) :=
  match os with
  | [] => Ret w []
  | o :: r => bind (astep var o w) (fun w x => bind (arun var r w) (fun w xs => Ret w (x :: xs)))
  end.
Definition w_empty : world := mkw [] [].

(** ** Searching and comparing. [h] gives the objects (ValueModel.v); a script string is
    compared with [strcmp] (String.cpp:265-268). [None]: dangling object. *)
Section Compare.
Variable h : heap.

(** One round of ArrayScriptObjectZs_contains, ArrayScriptObjectZs.cpp:85-104; [x] is searched *)
Definition match_elem (x e : stk) : option bool :=
  let k := Z.land (props x) (props e) in
  if (k =? P_BOOL) || (k =? P_INT) || (k =? P_FLOAT) then Some (val e =? val x)
  else if k =? P_OBJECT then
    match h (val x), h (val e) with
    | Some ox, Some oe =>
        match ox, oe with
        | OStr s, OStr t => Some (c_strcmp s t =? 0)
        | _, _ => Some false
        end
    | _, _ => None
    end
  else Some false.
Fixpoint a_contains_from (n : nat) (i : Z) (s : ast) (x : stk) : outcome ast bool :=
  match n with
  | O => Ret s false
  | S n' =>
      bind (bind (a_ptr s i) a_load) (fun s e =>
        match match_elem x e with
        | None => Undef
        | Some true => Ret s true
        | Some false => a_contains_from n' (i + 1) s x
        end)
  end.
Definition a_contains (s : ast) (x : stk) : outcome ast bool :=
  a_contains_from (Z.to_nat (count (arr s))) 0 s x.

(** One round of ArrayScriptObjectZs_equal, ArrayScriptObjectZs.cpp:121-153 *)
Definition equal_elem (a b : stk) : option bool :=
  let k := Z.lor (props a) (props b) in
  if (k =? P_INT) || (k =? P_FLOAT) || (k =? P_BOOL) then Some (val a =? val b)
  else if k =? Z.lor P_INT P_FLOAT then
    if has (props a) P_INT && has (props b) P_FLOAT
    then Some (feqb (of_int (val a)) (dec (val b)))
    else Some (feqb (dec (val a)) (of_int (val b)))
  else if k =? P_OBJECT then
    match obj_of h a, obj_of h b with
    | Some oa, Some ob =>
        match oa, ob with
        | Some (OStr s), Some (OStr t) => Some (c_strcmp s t =? 0)
        | _, _ => Some (val a =? val b)
        end
    | _, _ => None
    end
  else Some false.
Fixpoint a_equal_from (n : nat) (i : Z) (m : blocks) (v1 v2 : vec nat) : outcome unit bool :=
  match n with
  | O => Ret tt true
  | S n' =>
      match bind (a_ptr (mka m v1) i) a_load, bind (a_ptr (mka m v2) i) a_load with
      | Ret _ x, Ret _ y =>
          match equal_elem x y with
          | None => Undef
          | Some true => a_equal_from n' (i + 1) m v1 v2
          | Some false => Ret tt false
          end
      | Undef, _ | _, Undef => Undef
      | _, _ => Exc tt
      end
  end.
(** ArrayScriptObjectZs_equal, ArrayScriptObjectZs.cpp:111-157 *)
Definition a_equal (m : blocks) (v1 v2 : vec nat) : outcome unit bool :=
  if count v1 =? count v2 then a_equal_from (Z.to_nat (count v1)) 0 m v1 v2 else Ret tt false.

(** ArrayScriptObject::join is not modelled. *)
End Compare.
