(** * Iterators of arrays, strings and objects, and the values a for-in loop gets.

    Modelled sources: src/core/object/ArrayIteratorScriptObject.cpp,
    StringIteratorScriptObject.cpp, ObjectIteratorScriptObject.cpp,
    src/base/MapStringIterator.cpp, src/vm/vm_iterator.cpp:6-125,
    src/vm/vm_native_function.cpp:931-947 and src/vm/vm_call.cpp:603-637.

    Simplifications: a container is identified by a number and a deleted one is
    [None] (RefScriptObject sets ref_object to NULL); lengths are below 2^31, so
    [int idx] does not overflow; the iterator object is identified by a number
    and lives as long as the loop.  Iterators written in the script (classes with
    a member function [_iter]) are not modelled.  Everything else a script can do
    (operators, calls, assignments to anything but variables, the end of a scope)
    is arbitrary: parameters of the section. *)
From Coq Require Import ZArith List Bool Lia.
From Verif Require Import Base FloatModel ListModel MapModel ExprModel VmModel.
Import ListNotations.
Local Open Scope Z_scope.

(** Script values as far as loops see them. *)
Inductive ival :=
| VUndef | VNull | VBool (b : bool) | VInt (z : Z) | VStr (s : list Z)
| VRef (c : nat)                   (* array, string object or object *)
| VIter (n : nat)                  (* iterator object *)
| VMember (k : itfun) (n : nat)    (* member function of an iterator *)
| VOther (z : Z).

Inductive container :=
| CArr (l : list ival)
| CStr (s : list Z)                (* bytes *)
| CObj (m : map (list Z) ival).

(** The state of an iterator: [idx], or [current_node] and [_end]. *)
Inductive itpos :=
| PIdx (c : nat) (i : nat)
| PNode (c : nat) (cur : option nat) (fin : bool).

Section World.
Variable X : Type.   (* the rest of the world *)

Record iworld := mkiw {
  ivars : var -> ival;
  iheap : nat -> option container;
  iters : nat -> option itpos;
  nits : nat;                      (* next unused iterator number *)
  iub : bool;                      (* undefined behaviour has happened *)
  iext : X
}.

Definition var_eqb (x y : var) : bool :=
  match x, y with
  | Local i, Local j | This i, This j | Global i, Global j => Nat.eqb i j
  | _, _ => false
  end.
Definition set_var (x : var) (v : ival) (w : iworld) : iworld :=
  mkiw (fun y => if var_eqb y x then v else ivars w y) (iheap w) (iters w) (nits w) (iub w) (iext w).
Definition set_iter (n : nat) (p : itpos) (w : iworld) : iworld :=
  mkiw (ivars w) (iheap w) (fun m => if Nat.eqb m n then Some p else iters w m) (nits w) (iub w) (iext w).
Definition new_iter (p : itpos) (w : iworld) : iworld :=
  mkiw (ivars w) (iheap w) (fun m => if Nat.eqb m (nits w) then Some p else iters w m) (S (nits w)) (iub w) (iext w).
Definition ubw (w : iworld) : iworld := mkiw (ivars w) (iheap w) (iters w) (nits w) true (iext w).

(** A char is signed: [zs_int ch=str_ref->at(idx)], StringIteratorScriptObject.cpp:37. *)
Definition schar (b : Z) : Z := if b <? 128 then b else b - 256.

(** Constructors: ArrayIteratorScriptObject.cpp:18-27, StringIteratorScriptObject.cpp:17-25,
    ObjectIteratorScriptObject.cpp:19-30 with MapStringIterator.cpp:20-29. *)
Definition it_start (c : nat) (k : container) : itpos :=
  match k with
  | CArr _ | CStr _ => PIdx c 0
  | CObj m => PNode c (first (ring_of m)) (match first (ring_of m) with None => true | Some _ => false end)
  end.

(** [_end]: ArrayIteratorScriptObject.cpp:61-67, StringIteratorScriptObject.cpp:60-66,
    ObjectIteratorScriptObject.cpp:33-38.  A deleted container is an error. *)
Definition it_end (p : itpos) (w : iworld) : ev iworld bool :=
  match p with
  | PIdx c i =>
      match iheap w c with
      | Some (CArr l) => EOk (length l <=? i)%nat w
      | Some (CStr s) => EOk (length s <=? i)%nat w
      | _ => EErr w
      end
  | PNode c _ fin =>
      match iheap w c with
      | Some (CObj _) => EOk fin w
      | _ => EErr w
      end
  end.

(** [_get] pushes the value and the key: ArrayIteratorScriptObject.cpp:29-47,
    StringIteratorScriptObject.cpp:27-46, ObjectIteratorScriptObject.cpp:40-53.
    Past the end the index iterators give the previous value again; a loop asks
    [_end] before, so the model says undefined there.  Key and value of the
    current node are read through pointers: gone if the node is. *)
Definition it_get_vals (p : itpos) (w : iworld) : ev iworld (list ival) :=
  match p with
  | PIdx c i =>
      match iheap w c with
      | Some (CArr l) => EOk [nth i l VUndef; VInt (Z.of_nat i)] w
      | Some (CStr s) =>
          EOk [match nth_error s i with Some b => VInt (schar b) | None => VUndef end; VInt (Z.of_nat i)] w
      | _ => EErr w
      end
  | PNode c cur fin =>
      match iheap w c with
      | Some (CObj m) =>
          if fin then EOk [] w else
          match cur with
          | None => EOk [] w
          | Some n =>
              match nkey m n, nval m n with
              | Some k, Some v => EOk [v; VStr k] w
              | _, _ => EErr (ubw w)
              end
          end
      | _ => EErr w
      end
  end.

(** [_next]: ArrayIteratorScriptObject.cpp:49-59, StringIteratorScriptObject.cpp:48-58,
    ObjectIteratorScriptObject.cpp:56-61 with MapStringIterator.cpp:40-52. *)
Definition it_next (p : itpos) (w : iworld) : ev iworld itpos :=
  match p with
  | PIdx c i =>
      match iheap w c with
      | Some (CArr l) => EOk (if (i <? length l)%nat then PIdx c (S i) else p) w
      | Some (CStr s) => EOk (if (i <? length s)%nat then PIdx c (S i) else p) w
      | _ => EErr w
      end
  | PNode c cur fin =>
      match iheap w c with
      | Some (CObj m) =>
          match cur with
          | None => EOk p w
          | Some n =>
              match next (heap (ring_of m)) n with
              | Some nx => EOk (PNode c (Some nx) (eqo (first (ring_of m)) nx)) w
              | None => EErr (ubw w)
              end
          end
      | _ => EErr w
      end
  end.

(** A native function pushes its return value after the values it has put on the
    stack itself, and turns all of them around (vm_native_function.cpp:931-947);
    the call instruction fills up with undefined, turns them around again and
    keeps the first [m] (vm_call.cpp:603-637). *)
Definition native_returns (pushed : list ival) (result : ival) : list ival := rev (pushed ++ [result]).
Definition deliver (m : nat) (rets : list ival) : list ival :=
  firstn m (rev (rets ++ repeat VUndef (m - length rets))).

(** IT_INIT, vm_iterator.cpp:6-125: the iterator goes to the variable. *)
Definition i_init (v : ival) (x : var) (w : iworld) : ev iworld unit :=
  match v with
  | VRef c =>
      match iheap w c with
      | Some k => EOk tt (set_var x (VIter (nits w)) (new_iter (it_start c k) w))
      | None => EErr w
      end
  | _ => EErr w
  end.

Definition i_load (k : itfun) (v : ival) (w : iworld) : ev iworld ival :=
  match v with VIter n => EOk (VMember k n) w | _ => EErr w end.

Definition i_call (m : nat) (f : ival) (w : iworld) : ev iworld (list ival) :=
  match f with
  | VMember k n =>
      match iters w n with
      | None => EErr w
      | Some p =>
          match k with
          | ItEnd => ebind (it_end p w) (fun b w1 => EOk (deliver m (native_returns [] (VBool b))) w1)
          | ItGet => ebind (it_get_vals p w) (fun vs w1 => EOk (deliver m (native_returns vs VUndef)) w1)
          | ItNext => ebind (it_next p w) (fun p' w1 =>
                        EOk (deliver m (native_returns [] VUndef)) (set_iter n p' w1))
          end
      end
  | _ => EErr w
  end.

(** Everything else. *)
Record rest := {
  r_k : const -> ival; r_fun : Z -> ival; r_type : Z -> ival;
  r_bin : bop -> ival -> ival -> iworld -> ev iworld ival;
  r_un : uop -> ival -> iworld -> ev iworld ival;
  r_inst : ival -> Z -> iworld -> ev iworld ival;
  r_incdec : bool -> bool -> var + Z -> iworld -> ev iworld ival;
  r_assign : asop -> var + Z -> ival -> iworld -> ev iworld ival;
  r_prim : Z -> list (ival + (var + Z)) -> iworld -> ev iworld ival;
  r_lprim : Z -> list (ival + (var + Z)) -> iworld -> ev iworld (var + Z);
  r_case : ival -> ival -> iworld -> ev iworld bool;
  r_pop : Z -> iworld -> iworld
}.

Definition ISem (R : rest) : Sem := {|
  V := ival; W := iworld; L := (var + Z)%type;
  kval := r_k R; undefv := VUndef; nullv := VNull; funv := r_fun R; typev := r_type R;
  vbool := fun v => match v with VBool b => Some b | _ => None end;
  vget := ivars; lvar := fun x => inl x;
  binop := r_bin R; unop := r_un R; instof := r_inst R; incdec := r_incdec R;
  assign := fun a l v w =>
    match a, l with
    | A_SET, inl x => EOk v (set_var x v w)
    | _, _ => r_assign R a l v w
    end;
  prim := r_prim R; lprim := r_lprim R; caseeq := r_case R;
  itinit := fun v l w => match l with inl x => i_init v x w | inr _ => EErr w end;
  itload := i_load; itcall := i_call;
  popsc := r_pop R
|}.
End World.

Arguments ivars {X} _ _. Arguments iheap {X} _ _. Arguments iters {X} _ _. Arguments nits {X} _.
Arguments iub {X} _. Arguments iext {X} _. Arguments set_var {X} x v w. Arguments set_iter {X} n p w.
Arguments new_iter {X} p w. Arguments ubw {X} w. Arguments it_end {X} p w. Arguments it_get_vals {X} p w.
Arguments it_next {X} p w. Arguments i_init {X} v x w. Arguments i_load {X} k v w. Arguments i_call {X} m f w.
Arguments ISem {X} R. Arguments mkiw {X}.
