(** Reading and writing elements of arrays, fields of objects and characters of strings;
    array and object literals.

    Source: /repo/src/vm/vm_container.cpp:387-530 (vm_push_container_item, the items of a
    literal), 533-664 (vm_load_vector_item, [c[i]] read or as a destination),
    /repo/src/vm/vm_store.cpp:34-80, 205-382 (vm_store),
    /repo/src/core/object/ArrayScriptObject.cpp:55-70, 97-103,
    /repo/src/core/object/ObjectScriptObject.cpp:57-100,
    /repo/src/core/object/StringScriptObject.cpp:301-303,
    /repo/src/compiler/compiler_expression_byte_code.cpp:23-25 (only the last access of a
    destination is turned into PUSH_STK_ARRAY_ITEM).

    What is kept: every variable and every element of a container is a cell of its own; a cell
    with a string points to a string object that a store overwrites in place; containers are
    referred to.

    Simplifications.
    - Container 0 holds the variables.  Fields are kept in the order of insertion (C06), next
      to their keys.
    - A container in a container is held through a ContainerSlot, which is followed wherever
      it is read: both are [CRef].  Reference counts are not kept, nothing is freed (see ShareModel).
    - An integer never equals the address of an object (vm_store.cpp:293 compares them).
    - The constant object of a string literal is new at each evaluation; nothing writes to it.
    - Objects of classes, which have member functions and setters, are left out; so are
      compound assignments and assignments to several destinations (C37, C100).
    - Texts are kept without the bytes behind their end: what lies there is undefined. *)
From Coq Require Import List ZArith Bool SpecFloat.
From Verif Require Import Base FloatModel StringModel ValueModel.
Import ListNotations.
Local Open Scope Z_scope.

Inductive cell :=
| CU | CN | CI (z : Z) | CF (f : f64) | CB (b : bool) | CFun (f : Z) | CTy (t : Z)
| CStr (r : nat)                             (* a string object *)
| CRef (c : nat).                            (* an array or object *)

(** An array ([keys] is [None]) or an object. *)
Record cont A := Cont { keys : option (list (list Z)); cells : list A }.
Arguments Cont {A}. Arguments keys {A}. Arguments cells {A}.

Record mem := Mem { conts : list (cont cell); strs : list (list Z) }.

(** Replace position [i]. *)
Fixpoint put {A} (l : list A) (i : nat) (x : A) : list A :=
  match l, i with
  | [], _ => []
  | _ :: r, O => x :: r
  | a :: r, S k => a :: put r k x
  end.

(** MapString::get, C05: the position of a key. *)
Fixpoint find_key (k : list Z) (ks : list (list Z)) : option nat :=
  match ks with
  | [] => None
  | k' :: r => if list_eq_dec Z.eq_dec k k' then Some O else option_map S (find_key k r)
  end.

Definition get_cell (m : mem) (c i : nat) : option cell :=
  match nth_error (conts m) c with Some k => nth_error (cells k) i | None => None end.
Definition set_cell (m : mem) (c i : nat) (x : cell) : mem :=
  match nth_error (conts m) c with
  | Some k => Mem (put (conts m) c (Cont (keys k) (put (cells k) i x))) (strs m)
  | None => m
  end.
(** A new element: ArrayScriptObject::newSlot, or a new field. *)
Definition add_cell (m : mem) (c : nat) (k : option (list Z)) (x : cell) : mem :=
  match nth_error (conts m) c with
  | Some o => Mem (put (conts m) c
                     (Cont (match keys o, k with Some ks, Some k' => Some (ks ++ [k']) | ks, _ => ks end)
                           (cells o ++ [x]))) (strs m)
  | None => m
  end.
Definition new_cont (m : mem) (ks : option (list (list Z))) : mem * nat :=
  (Mem (conts m ++ [Cont ks []]) (strs m), List.length (conts m)).
Definition new_text (m : mem) (t : list Z) : mem * nat :=
  (Mem (conts m) (strs m ++ [t]), List.length (strs m)).

(** ** Expressions *)
Inductive konst := KU | KN | KI (z : Z) | KF (f : f64) | KB (b : bool) | KS (t : list Z).
Inductive expr :=
| EK (k : konst) | EVar (x : nat) | EIdx (e i : expr) | ELit (l : lit)
with lit :=
| LArr | LPush (l : lit) (e : expr)          (* [..., e] *)
| LObj | LField (l : lit) (k : list Z) (e : expr).  (* {..., k: e} *)

(** [int index_aux1 = zs_int], vm_container.cpp:574 *)
Definition int32 (z : Z) : Z := (z + 2 ^ 31) mod 2 ^ 32 - 2 ^ 31.
(** [int index_aux1 = zs_float], line 576: undefined when the result does not fit. *)
Definition trunc32 (f : f64) : res Z :=
  match f with
  | S754_zero _ => Ok 0
  | S754_finite s m e =>
      let a := if 0 <=? e then Zpos m * 2 ^ e else Zpos m / 2 ^ (- e) in
      let z := if s then - a else a in
      if (- 2 ^ 31 <=? z) && (z <? 2 ^ 31) then Ok z else UB
  | _ => UB
  end.

(** What [c[i]] designates: a cell, a field that does not exist, or a character. *)
Inductive place := PCell (c i : nat) | PNew (c : nat) (k : list Z) | PChar (r : nat) (i : Z).

(** vm_container.cpp:554-661 up to the push. *)
Definition access (m : mem) (x i : cell) : res place :=
  match x with
  | CRef c =>
      match nth_error (conts m) c with
      | None => UB
      | Some (Cont None cs) =>
          do z <- match i with CI z => Ok (int32 z) | CF f => trunc32 f | _ => Thr end;
          if (Z.of_nat (List.length cs) <=? z) || (z <? 0) then Thr else Ok (PCell c (Z.to_nat z))
      | Some (Cont (Some ks) cs) =>
          match i with
          | CStr r => match nth_error (strs m) r with
                      | Some k => match find_key k ks with
                                  | Some p => Ok (PCell c p)
                                  | None => Ok (PNew c k)
                                  end
                      | None => UB
                      end
          | _ => Thr
          end
      end
  | CStr r => match i with CI z => Ok (PChar r z) | _ => Thr end
  | _ => Thr
  end.

(** zs_char is int8_t (Common.h:62). *)
Definition signed8 (b : Z) : Z := if b <? 128 then b else b - 256.
(** The byte at a position of a text, 0 right behind it. *)
Definition byte_at (t : list Z) (z : Z) : res Z :=
  if (z <? 0) || (Z.of_nat (List.length t) <? z) then UB
  else Ok (nth (Z.to_nat z) t 0).

(** BYTE_CODE_LOAD_ARRAY_ITEM *)
Definition load_item (m : mem) (x i : cell) : res cell :=
  do p <- access m x i;
  match p with
  | PCell c k => ofo (get_cell m c k)
  | PNew _ _ => Thr
  | PChar r z => match nth_error (strs m) r with
                 | Some t => do b <- byte_at t z; Ok (CI (signed8 b))
                 | None => UB
                 end
  end.

Definition load_const (m : mem) (k : konst) : mem * cell :=
  match k with
  | KU => (m, CU) | KN => (m, CN) | KI z => (m, CI z) | KF f => (m, CF f) | KB b => (m, CB b)
  | KS t => let (m', r) := new_text m t in (m', CStr r)
  end.

(** The element stored for an item of a literal: a string is copied, vm_container.cpp:487-492. *)
Definition item (m : mem) (x : cell) : res (mem * cell) :=
  match x with
  | CStr r => match nth_error (strs m) r with
              | Some t => let (m', r') := new_text m (set_text t) in Ok (m', CStr r')
              | None => UB
              end
  | _ => Ok (m, x)
  end.

Fixpoint eval (m : mem) (e : expr) : res (mem * cell) :=
  match e with
  | EK k => Ok (load_const m k)
  | EVar x => do v <- ofo (get_cell m 0 x); Ok (m, v)
  | EIdx a i => do r1 <- eval m a; do r2 <- eval (fst r1) i;
                do v <- load_item (fst r2) (snd r1) (snd r2); Ok (fst r2, v)
  | ELit l => do r <- build m l; Ok (fst r, CRef (snd r))
  end
with build (m : mem) (l : lit) : res (mem * nat) :=
  match l with
  | LArr => Ok (new_cont m None)
  | LObj => Ok (new_cont m (Some []))
  | LPush l' e => do r1 <- build m l'; do r2 <- eval (fst r1) e; do r3 <- item (fst r2) (snd r2);
                  match nth_error (conts (fst r3)) (snd r1) with
                  | Some (Cont None _) => Ok (add_cell (fst r3) (snd r1) None (snd r3), snd r1)
                  | _ => Thr
                  end
  | LField l' k e => do r1 <- build m l'; do r2 <- eval (fst r1) e; do r3 <- item (fst r2) (snd r2);
                  match nth_error (conts (fst r3)) (snd r1) with
                  | Some (Cont (Some ks) _) =>
                      Ok (match find_key k ks with
                          | Some p => set_cell (fst r3) (snd r1) p (snd r3)
                          | None => add_cell (fst r3) (snd r1) (Some k) (snd r3)
                          end, snd r1)
                  | _ => Thr
                  end
  end.

(** ** Statements *)
Inductive dest := DVar (x : nat) | DIdx (e i : expr).
Inductive stmt := SSet (d : dest) (e : expr).

(** vm_store.cpp:205-320 into a cell. *)
Definition store (m : mem) (c i : nat) (v : cell) : res mem :=
  match get_cell m c i with
  | None => UB
  | Some old =>
      match v with
      | CStr r =>
          match nth_error (strs m) r with
          | None => UB
          | Some t =>
              match old with
              | CStr r0 => Ok (Mem (conts m) (put (strs m) r0 (set_text t)))
              | _ => let (m', r') := new_text m (set_text t) in Ok (set_cell m' c i (CStr r'))
              end
          end
      | _ => Ok (set_cell m c i v)
      end
  end.
(** Into a character: only an integer is written, lines 222-228; other values go to the stack
    element that held the pointer. *)
Definition store_char (m : mem) (r : nat) (z : Z) (v : cell) : res mem :=
  match v with
  | CI n => match nth_error (strs m) r with
            | Some t => if (0 <=? z) && (z <? Z.of_nat (List.length t))
                        then Ok (Mem (conts m) (put (strs m) r (put t (Z.to_nat z) (n mod 256)))) else UB
            | None => UB
            end
  | _ => Ok m
  end.

(** The right side, then the destination, then the store. *)
Definition exec (m : mem) (s : stmt) : res mem :=
  match s with
  | SSet d e =>
      do r <- eval m e;
      match d with
      | DVar x => store (fst r) 0 x (snd r)
      | DIdx a i =>
          do r1 <- eval (fst r) a; do r2 <- eval (fst r1) i;
          do p <- access (fst r2) (snd r1) (snd r2);
          match p with
          | PCell c k => store (fst r2) c k (snd r)
          | PNew c k => match nth_error (conts (fst r2)) c with
                        | Some o => store (add_cell (fst r2) c (Some k) CU) c (List.length (cells o)) (snd r)
                        | None => UB
                        end
          | PChar q z => store_char (fst r2) q z (snd r)
          end
      end
  end.
Fixpoint run (m : mem) (ss : list stmt) : res mem :=
  match ss with
  | [] => Ok m
  | s :: r => do m' <- exec m s; run m' r
  end.

(** A program starts with its variables undefined. *)
Definition start (nvars : nat) : mem := Mem [Cont None (repeat CU nvars)] [].
