(** Model of the intrusive circular doubly linked list /repo/src/base/List.tcc.
    The same pointer surgery is used by MapString.cpp, MapInt.cpp and
    vm_share_manager.cpp; their models reuse [ring_insert]/[ring_remove].

    Nodes are identified by numbers; NULL is [None]. Payloads ([data]) play no role. *)
From Coq Require Import List Arith Bool.
From Verif Require Import Base.
Import ListNotations.

(** List.h: struct ListNode { data; previous; next } for all nodes of the heap. *)
Record links := mklinks { prev : nat -> option nat; next : nat -> option nat }.

Definition fset (f : nat -> option nat) (k : nat) (v : option nat) : nat -> option nat :=
  fun x => if x =? k then v else f x.
Definition set_prev (h : links) k v := mklinks (fset (prev h) k v) (next h).
Definition set_next (h : links) k v := mklinks (prev h) (fset (next h) k v).

Record clist := mkclist { first : option nat; last : option nat; heap : links }.

(** List.tcc:9-13; all nodes start detached. *)
Definition cl_empty : clist := mkclist None None (mklinks (fun _ => None) (fun _ => None)).

(** List.tcc:22-34: link a detached node at the end. [Undef] if a NULL [last] were
    dereferenced. *)
Definition ring_insert (st : clist) (n : nat) : outcome clist unit :=
  match first st with
  | None =>
    Ret (mkclist (Some n) (Some n) (set_prev (set_next (heap st) n (Some n)) n (Some n))) tt
  | Some f =>
    match last st with
    | None => Undef
    | Some la =>
      let h1 := set_prev (heap st) n (Some la) in
      let h2 := set_next h1 la (Some n) in
      let h3 := set_next h2 n (Some f) in
      let h4 := set_prev h3 f (Some n) in
      Ret (mkclist (Some f) (Some n) h4) tt
    end
  end.

(** List.tcc:15-35 *)
Definition cl_insert (st : clist) (n : nat) : outcome clist unit :=
  match next (heap st) n, prev (heap st) n with
  | None, None => ring_insert st n
  | _, _ => Exc st
  end.

Definition eqo (a : option nat) (n : nat) : bool :=
  match a with Some m => m =? n | None => false end.

(** List.tcc:45-60, parametrised by whether the second test is [if] (List.tcc:53)
    or [else if] (MapString.cpp:221, MapInt.cpp, vm_share_manager.cpp:153). *)
Definition ring_remove (else_if : bool) (st : clist) (n : nat) : outcome clist unit :=
  let h := heap st in
  if eqo (prev h n) n && eqo (next h n) n then
    Ret (mkclist None None (set_next (set_prev h n None) n None)) tt
  else
    let was_first := eqo (first st) n in
    let f' := if was_first then next h n else first st in
    let la' := if (if else_if then negb was_first else true) && eqo (last st) n
               then prev h n else last st in
    match prev h n, next h n with
    | Some p, Some q =>
      let h1 := set_next h p (Some q) in
      (* node->next is read again after the store *)
      match next h1 n with
      | Some q' =>
        match prev h1 n with
        | Some p' =>
          let h2 := set_prev h1 q' (Some p') in
          Ret (mkclist f' la' (set_next (set_prev h2 n None) n None)) tt
        | None => Undef
        end
      | None => Undef
      end
    | _, _ => Undef
    end.

(** List.tcc:38-61 *)
Definition cl_remove (st : clist) (n : nat) : outcome clist unit :=
  match next (heap st) n, prev (heap st) n with
  | Some _, Some _ => ring_remove false st n
  | _, _ => Exc st
  end.

(** List.tcc:64-83 with a callback; the callback's only effect on the list is given
    by [cb] (in the engine: it removes the node it receives, ContainerScriptObject.cpp).
    [None] for a NULL callback. The [do ... while] gets fuel; running out of it is
    reported as [None]. *)
Fixpoint detach_loop (fuel : nat) (cb : option (clist -> nat -> outcome clist unit))
         (cur : option nat) (st : clist) : option (outcome clist unit) :=
  match fuel with
  | O => None
  | S k =>
    match cur with
    | None => Some Undef
    | Some c =>
      let nx := next (heap st) c in
      match (match cb with Some f => f st c | None => Ret st tt end) with
      | Ret st' _ => match first st' with
                     | None => Some (Ret st' tt)
                     | Some _ => detach_loop k cb nx st'
                     end
      | Exc st' => Some (Exc st')
      | Undef => Some Undef
      end
    end
  end.
Definition detach_all (fuel : nat) cb (st : clist) : option (outcome clist unit) :=
  match first st with
  | None => Some (Ret st tt)
  | Some _ => detach_loop fuel cb (first st) st
  end.

(** Traversal as all users do it: [do visit; cur = cur->next; while (cur != first)]. *)
Fixpoint walk_loop (fuel : nat) (step : nat -> option nat) (stop : nat) (cur : nat) : option (list nat) :=
  match fuel with
  | O => None
  | S k => match step cur with
           | None => None
           | Some nx => if nx =? stop then Some [cur]
                        else match walk_loop k step stop nx with
                             | Some r => Some (cur :: r)
                             | None => None
                             end
           end
  end.
Definition walk_forward (fuel : nat) (st : clist) : option (list nat) :=
  match first st with
  | None => Some []
  | Some f => walk_loop fuel (next (heap st)) f f
  end.
Definition walk_backward (fuel : nat) (st : clist) : option (list nat) :=
  match last st with
  | None => Some []
  | Some la => walk_loop fuel (prev (heap st)) la la
  end.

(** Histories. *)
Inductive lop := LInsert (n : nat) | LRemove (n : nat).

(** Result of each operation: [true] accepted, [false] refused with an exception. *)
Fixpoint lrun (os : list lop) (st : clist) : option (clist * list bool) :=
  match os with
  | [] => Some (st, [])
  | o :: r =>
    let res := match o with LInsert n => cl_insert st n | LRemove n => cl_remove st n end in
    match res with
    | Ret st' _ => match lrun r st' with Some (s, bs) => Some (s, true :: bs) | None => None end
    | Exc st' => match lrun r st' with Some (s, bs) => Some (s, false :: bs) | None => None end
    | Undef => None
    end
  end.
