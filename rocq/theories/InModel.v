(** The operator [in] and the condition that follows it.

    Source: /repo/src/vm/vm_iterator.cpp:130-222 (vm_perform_in_operator),
    /repo/src/vm/vm_pop_stk.h:39-75, /repo/src/ScriptEngine.cpp:369-387,
    /repo/src/vm/vm_script_function.cpp:281-292, 573-583,
    /repo/src/core/object/ArrayScriptObjectZs.cpp:80-109 (one round is
    [ArrayModel.match_elem]), ObjectScriptObjectZs.cpp:36-39,
    ObjectScriptObject.cpp:103-108, StringScriptObjectZs.cpp:14-24.

    Simplifications.
    - The elements of an array are the list that [Array*] proves it to be, the names of the
      fields of an object the list that [Map*] and [Object*] prove, the search in a text is
      the one that [C13] proves of String::contains and strchr.
    - The operand stack and the local variables below it are one list, top first; the
      stack above the list is not looked at.
    - Metamethods of classes are not run ([Meta]). *)
From Coq Require Import List ZArith Bool Lia.
From Verif Require Import Base StringModel ValueModel ArrayModel.
Import ListNotations.
Local Open Scope Z_scope.

(** The bytes before the first 0 of a text, as the functions on [char *] see it. *)
Fixpoint cut (s : list Z) : list Z :=
  match s with [] => [] | c :: s' => if c =? 0 then [] else c :: cut s' end.
(** Equality of two texts (the lookup of a name in the map of fields). *)
Definition same_text (a b : list Z) : bool := if list_eq_dec Z.eq_dec a b then true else false.
(** StringScriptObjectZs.cpp:21-24: strchr, its argument taken as a char; the end of the text
    is found too. *)
Definition char_in (s : list Z) (c : Z) : bool := (c mod 256 =? 0) || existsb (Z.eqb (c mod 256)) (cut s).
(** StringScriptObjectZs.cpp:14-19, String.cpp:393-407 and find: nothing is found in the empty
    text. *)
Fixpoint occurs (p s : list Z) : bool :=
  is_prefix p s || match s with [] => false | _ :: s' => occurs p s' end.
Definition text_in (s p : list Z) : bool :=
  match s with [] => false | _ => occurs (cut p) (cut s) end.

(** What is pushed: an answer, nothing at all, or the operator stops with an error. *)
Inductive answer := Push (b : bool) | Nothing | Stop | Meta | Bad.

Section In.
(** The objects, the elements of arrays, the names of the fields of objects, the text
    (toString) of the other objects. *)
Variable h : heap.
Variable items : Z -> list stk.
Variable keys : Z -> list (list Z).
Variable text : Z -> list Z.
(** The variables that references point to, the containers of container slots. *)
Variable cell : Z -> option stk.
Variable src : Z -> option Z.

(** ScriptEngine.cpp:369-387. *)
Definition unwrap (s : stk) : option stk :=
  let s1 := if has (props s) P_PTR_STK then cell (val s) else Some s in
  match s1 with
  | None => None
  | Some s1 =>
      let s2 := if has (props s1) P_CONTAINER_SLOT
                then match src (val s1) with Some a => Some (Stk a P_OBJECT) | None => None end
                else Some s1 in
      match s2 with
      | None => None
      | Some s2 =>
          let s3 := if has (props s2) P_READ_ONLY then Stk (val s2) (Z.ldiff (props s2) P_READ_ONLY) else s2 in
          Some (if has (props s3) P_OBJECT_IN_CONTAINER then Stk (val s3) P_OBJECT else s3)
      end
  end.

(** ArrayScriptObjectZs.cpp:85-107. *)
Fixpoint scan (x : stk) (l : list stk) : answer :=
  match l with
  | [] => Push false
  | e :: l' => match match_elem h x e with None => Bad | Some true => Push true | Some false => scan x l' end
  end.

(** toString of the object at an address. *)
Definition shown (a : Z) : list Z := match h a with Some (OStr s) => s | _ => text a end.

(** vm_iterator.cpp:150-217.  The kind of the left operand is looked up before unwrapping for
    a number in a text and for a name in an object. *)
Definition in_op (x y : stk) : answer :=
  match unwrap x, unwrap y with
  | Some x1, Some y1 =>
      if has (props y1) P_OBJECT then
        match h (val y1) with
        | None => Bad
        | Some (OStr s) =>
            if has (props x) P_INT then Push (char_in s (val x))
            else match obj_of h x1 with
                 | None => Bad
                 | Some (Some (OStr p)) => Push (text_in s p)
                 | Some _ => Stop
                 end
        | Some OArr => scan x1 (items (val y1))
        | Some ODict =>
            if has (props x) P_OBJECT
            then Push (existsb (same_text (cut (shown (val x1)))) (keys (val y1)))
            else Nothing
        | Some (OOther _) => Meta
        end
      else Stop
  | _, _ => Bad
  end.

(** Where the operands are (vm_pop_stk.h:39-75): both on the stack; the right one a constant
    or a variable; both constants or variables. *)
Inductive where_ := Both | Left_ (y : stk) | Neither (x y : stk).
Inductive out := Go (st : list stk) | Halt | Called | Wild.
Definition finish (a : answer) (st : list stk) : out :=
  match a with
  | Push b => Go (Stk (Z.b2z b) P_BOOL :: st)
  | Nothing => Go st
  | Stop => Halt
  | Meta => Called
  | Bad => Wild
  end.
Definition run_in (m : where_) (st : list stk) : out :=
  match m, st with
  | Both, y :: x :: st' => finish (in_op x y) st'
  | Left_ y, x :: st' => finish (in_op x y) st'
  | Neither x y, _ => finish (in_op x y) st
  | _, _ => Wild
  end.
(** BYTE_CODE_JNT, vm_script_function.cpp:281-292: which branch is taken, and the stack. *)
Inductive branch := Take (b : bool) (st : list stk) | NoBool | Below | Otherwise.
Definition cond_in (m : where_) (st : list stk) : branch :=
  match run_in m st with
  | Go (v :: st') => if has (props v) P_BOOL then Take (negb (val v =? 0)) st' else NoBool
  | Go [] => Below
  | _ => Otherwise
  end.
End In.
