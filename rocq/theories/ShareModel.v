(** Model of the reference counting of script objects, /repo/src/vm/vm_share_manager.cpp, of
    vm_pop_scope (/repo/src/vm/vm.tcc:33-80), vm_reset_stack (/repo/src/vm/vm.cpp:22-29) and of
    vm_delete_object (/repo/src/vm/vm_script_function.cpp:899-932).

    Objects, shared pointer nodes and scope blocks are numbers; memory is a set of live
    objects and nodes, addresses are not reused, touching anything not live is [UB]. The
    destructor of an object releases the references held in its fields and elements with
    vm_unref_shared_object(..., NULL) (ScriptObject.cpp:47-74, 249; ContainerScriptObject.cpp:40);
    [o_refs] lists them.

    Simplifications: a node found through a live object's shared_pointer or through a list is
    the only way to reach nodes; script destructors with side effects, native objects and the
    cyclic reference collector (vm.cpp:553-607) are not modelled. *)
From Coq Require Import List ZArith Bool Lia Arith.
From Verif Require Import Base StringModel ListModel.
Local Open Scope nat_scope.
Import ListNotations.

(** SharedPointerInfo (vm_share_manager.h:7-11): n_shares is an unsigned short. *)
Record ninfo := mkninfo { n_sh : Z; n_obj : nat; n_cr : nat }.
(** ScriptObject (ScriptObject.h): constant property, shared_pointer, references held. *)
Record obj := mkobj { o_const : bool; o_sp : option nat; o_refs : list nat }.

Record mgr := mkmgr {
  lnk : links;                     (* previous/next of all nodes *)
  bfst : nat -> option nat;        (* unreferenced_objects.first of each scope block *)
  blst : nat -> option nat;        (* unreferenced_objects.last *)
  nodes : nat -> option ninfo;
  nnext : nat;                     (* next node address *)
  objs : nat -> option obj;
  onext : nat                      (* next object address *)
}.

Definition upd1 {A} (f : nat -> A) (k : nat) (v : A) : nat -> A := fun x => if x =? k then v else f x.

Definition set_node (h : mgr) n v := mkmgr (lnk h) (bfst h) (blst h) (upd1 (nodes h) n v) (nnext h) (objs h) (onext h).
Definition set_obj (h : mgr) o v := mkmgr (lnk h) (bfst h) (blst h) (nodes h) (nnext h) (upd1 (objs h) o v) (onext h).
(** The list of block [b], and storing it back. *)
Definition view (h : mgr) (b : nat) : clist := mkclist (bfst h b) (blst h b) (lnk h).
Definition put_view (h : mgr) (b : nat) (c : clist) : mgr :=
  mkmgr (heap c) (upd1 (bfst h) b (first c)) (upd1 (blst h) b (last c)) (nodes h) (nnext h) (objs h) (onext h).
Definition of_outcome {S A} (r : outcome S A) : res S :=
  match r with Ret s _ => Ok s | Exc _ => Thr | Undef => UB end.

Definition get_obj (h : mgr) (o : nat) : res obj := ofo (objs h o).
Definition get_node (h : mgr) (n : nat) : res ninfo := ofo (nodes h n).

(** vm_insert_shared_node, vm_share_manager.cpp:46-67 *)
Definition insert_node (h : mgr) (b n : nat) : res mgr :=
  match next (lnk h) n, prev (lnk h) n with
  | None, None => do c <- of_outcome (ring_insert (view h b) n); Ok (put_view h b c)
  | _, _ => Thr
  end.
(** vm_deattach_shared_node, vm_share_manager.cpp:134-161 *)
Definition detach_node (h : mgr) (b n : nat) : res mgr :=
  match next (lnk h) n, prev (lnk h) n with
  | Some q, Some p =>
      do _x <- get_node h q; do _y <- get_node h p;
      do c <- of_outcome (ring_remove true (view h b) n); Ok (put_view h b c)
  | _, _ => Thr
  end.

(** vm_create_shared_object, vm_share_manager.cpp:7-44 *)
Definition create_shared (h : mgr) (o b : nat) : res mgr :=
  do ob <- get_obj h o;
  if o_const ob then Thr else
  match o_sp ob with
  | Some _ => Thr
  | None =>
      let n := nnext h in
      let h1 := mkmgr (lnk h) (bfst h) (blst h) (upd1 (nodes h) n (Some (mkninfo 0 o b))) (S n) (objs h) (onext h) in
      do h2 <- insert_node h1 b n;
      Ok (set_obj h2 o (Some (mkobj (o_const ob) (Some n) (o_refs ob))))
  end.

(** vm_share_object, vm_share_manager.cpp:69-96; the counter wraps at 65536. *)
Definition share (h : mgr) (o : nat) : res mgr :=
  do ob <- get_obj h o;
  if o_const ob then Thr else
  match o_sp ob with
  | None => UB
  | Some n =>
      do i <- get_node h n;
      let h1 := set_node h n (Some (mkninfo ((n_sh i + 1) mod 65536) (n_obj i) (n_cr i))) in
      if (n_sh i =? 0)%Z then detach_node h1 (n_cr i) n else Ok h1
  end.

(** vm_unref_shared_object, vm_share_manager.cpp:98-132; [del] is the C++ delete. *)
Definition unref_with (del : mgr -> nat -> res mgr) (h : mgr) (o : nat) (b : option nat) : res mgr :=
  do ob <- get_obj h o;
  if o_const ob then Thr else
  match o_sp ob with
  | None => Thr
  | Some n =>
      do i <- get_node h n;
      if (n_sh i =? 0)%Z then Thr else
      let k := (n_sh i - 1)%Z in
      let h1 := set_node h n (Some (mkninfo k (n_obj i) (n_cr i))) in
      if (k =? 0)%Z then
        match b with
        | None =>
            do h2 <- del h1 (n_obj i);
            do _x <- get_node h2 n;
            Ok (set_node h2 n None)
        | Some b => insert_node h1 b n
        end
      else Ok h1
  end.
Fixpoint each (f : mgr -> nat -> res mgr) (h : mgr) (rs : list nat) : res mgr :=
  match rs with [] => Ok h | r :: rs' => do h1 <- f h r; each f h1 rs' end.
(** ScriptObject::unrefStackElementContainer, ScriptObject.cpp:47-74: an element that is the
    object [p] itself is not released. *)
Definition release_from (del : mgr -> nat -> res mgr) (p : nat) (h : mgr) (r : nat) : res mgr :=
  if r =? p then Ok h else unref_with del h r None.
(** delete of an object: its destructor releases what it refers to, then the memory is freed. *)
Fixpoint delete (fuel : nat) (h : mgr) (o : nat) : res mgr :=
  match fuel with
  | O => Loop
  | S f =>
      do ob <- get_obj h o;
      do h1 <- each (release_from (delete f) o) h (o_refs ob);
      do _x <- get_obj h1 o;
      Ok (set_obj h1 o None)
  end.
Definition del (h : mgr) (o : nat) : res mgr := delete (S (onext h)) h o.
Definition unref (h : mgr) (o : nat) (b : option nat) : res mgr := unref_with del h o b.

(** vm_remove_empty_shared_pointers, vm_share_manager.cpp:163-190; [ret] are the objects on the
    stack being returned (vm_object_in_objects_to_return, vm.tcc:8-31). *)
Definition mem (o : nat) (l : list nat) : bool := existsb (Nat.eqb o) l.
Fixpoint sweep_loop (fuel : nat) (h : mgr) (b : nat) (ret : list nat) (c : nat) : res mgr :=
  match fuel with
  | O => Loop
  | S f =>
      do i <- get_node h c;
      let nx := next (lnk h) c in
      let fin := match nx, bfst h b with Some x, Some y => x =? y | None, None => true | _, _ => false end in
      do h1 <- detach_node h b c;
      do ob <- get_obj h1 (n_obj i);
      do h2 <- (if mem (n_obj i) ret
                then Ok (set_obj h1 (n_obj i) (Some (mkobj (o_const ob) None (o_refs ob))))
                else del h1 (n_obj i));
      do _x <- get_node h2 c;
      let h3 := set_node h2 c None in
      if fin then Ok h3
      else match nx with Some c' => sweep_loop f h3 b ret c' | None => UB end
  end.
Definition sweep (h : mgr) (b : nat) (ret : list nat) : res mgr :=
  match bfst h b with
  | None => Ok h
  | Some c => sweep_loop (S (nnext h)) h b ret c
  end.

(** One variable of the scope left by vm_pop_scope, vm.tcc:43-73. *)
Definition pop_var (ret : list nat) (h : mgr) (o : nat) : res mgr :=
  do ob <- get_obj h o;
  match o_sp ob with
  | None => Ok h
  | Some n =>
      do i <- get_node h n;
      if (1 <? n_sh i)%Z || negb (mem o ret) then unref h o None
      else
        do h1 <- (if (n_sh i =? 0)%Z then detach_node h (n_cr i) n else Ok h);
        Ok (set_obj (set_node h1 n None) o (Some (mkobj (o_const ob) None (o_refs ob))))
  end.
(** vm_pop_scope of block [b]; [vars] are the objects its variables hold, in order. *)
Definition pop_scope (h : mgr) (b : nat) (vars ret : list nat) : res mgr :=
  do h1 <- each (pop_var ret) h vars; sweep h1 b ret.

(** The statement delete (vm_delete_object): release, then read the object's type id. *)
Definition delete_statement (h : mgr) (o : nat) : res mgr :=
  do h1 <- unref h o None;
  do _x <- get_obj h1 o;
  Ok h1.

(** ** Histories. A container is an object; Put and Take store into and remove from it. *)
Inductive op : Type :=
| ONew (c : bool)                         (* a new object, constant or not, not yet shared *)
| OCreate (o b : nat)
| OShare (o : nat)                        (* a variable gets a reference *)
| OUnref (o : nat) (b : option nat)       (* a variable loses its reference *)
| OPut (p o : nat)
| OTake (p o : nat) (b : option nat)
| OSweep (b : nat) (ret : list nat)
| OPop (b : nat) (vars ret : list nat).

Fixpoint remove1 (x : nat) (l : list nat) : list nat :=
  match l with [] => [] | y :: l' => if y =? x then l' else y :: remove1 x l' end.
Definition new_obj (c : bool) (h : mgr) : mgr :=
  mkmgr (lnk h) (bfst h) (blst h) (nodes h) (nnext h) (upd1 (objs h) (onext h) (Some (mkobj c None []))) (S (onext h)).
(** A reference [p] holds is removed from it and released. *)
Definition drop_ref (h : mgr) (p o : nat) (b : option nat) : res mgr :=
  do ob <- get_obj h p;
  unref (set_obj h p (Some (mkobj (o_const ob) (o_sp ob) (remove1 o (o_refs ob))))) o b.
(** The same, except that an object holding itself is not released (ScriptObject.cpp:47-74). *)
Definition take_ref (h : mgr) (p o : nat) (b : option nat) : res mgr :=
  if o =? p then
    do ob <- get_obj h p;
    Ok (set_obj h p (Some (mkobj (o_const ob) (o_sp ob) (remove1 o (o_refs ob)))))
  else drop_ref h p o b.
Definition step (a : op) (h : mgr) : res mgr :=
  match a with
  | ONew c => Ok (new_obj c h)
  | OCreate o b => create_shared h o b
  | OShare o => share h o
  | OUnref o b => unref h o b
  | OPut p o =>
      do h1 <- share h o; do ob <- get_obj h1 p;
      Ok (set_obj h1 p (Some (mkobj (o_const ob) (o_sp ob) (o_refs ob ++ [o]))))
  | OTake p o b => take_ref h p o b
  | OSweep b ret => sweep h b ret
  | OPop b vars ret => pop_scope h b vars ret
  end.
Definition empty : mgr :=
  mkmgr (mklinks (fun _ => None) (fun _ => None)) (fun _ => None) (fun _ => None) (fun _ => None) 0 (fun _ => None) 0.

(** ArrayScriptObject::pop (/repo/src/core/object/ArrayScriptObject.cpp:113-124) where the last
    element of array [p] holds object [o]: the element is copied, the reference is released by
    unrefStackElementContainer (line 83), the copy is pushed on the stack; its user reads the object. *)
Definition array_pop (h : mgr) (p o : nat) : res mgr :=
  do h1 <- take_ref h p o None;
  do _x <- get_obj h1 o;
  Ok h1.

(** Storing into [p] the object [o] it already holds there: setStackElementByKeyName
    (/repo/src/core/object/ObjectScriptObject.cpp:57-87, 71-77) and ArrayScriptObject.cpp:49-61
    release the old element with unrefStackElementContainer before stackElementAssign
    (ContainerScriptObject.cpp) shares the new one. `o.extend(o)` does it for every field. *)
Definition reassign (h : mgr) (p o : nat) : res mgr :=
  do h1 <- take_ref h p o None;
  do h2 <- share h1 o;
  do ob <- get_obj h2 p;
  Ok (set_obj h2 p (Some (mkobj (o_const ob) (o_sp ob) (o_refs ob ++ [o])))).
