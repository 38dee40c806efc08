(** Containers held by containers: container slots, the counts of references they keep, the
    destruction of containers and the collector that ScriptEngine::clear runs.

    Source: /repo/src/core/object/ContainerSlot.cpp, ContainerScriptObject.cpp,
    /repo/src/vm/vm.cpp:502-608 (vm_assign_container_slot, vm_deref_cyclic_references),
    /repo/src/vm/vm_store.cpp:34-66, 205-376 (vm_store), /repo/src/vm/vm_container.cpp:160-345
    (fields with a point), 387-530 (items of literals), 533-640 (elements with brackets),
    /repo/src/vm/vm_share_manager.cpp, /repo/src/core/object/ScriptObject.cpp:47-79,
    ArrayScriptObject.cpp:85-100, ObjectScriptObject.cpp:57-84, 139-156,
    /repo/src/ScriptEngine.cpp:1131-1204 (clearGlobalVariables).

    Simplifications.
    - Values are integers, undefined and containers (arrays and objects); strings, classes and
      native objects are left out.  A key of an object and an index of an array are numbers.
    - Addresses are numbers and never used twice; touching something that was freed is [Crash].
    - n_shares is unbounded here (it is a 16 bit number, see ShareModel).
    - The ring of slots of a container (List.tcc, C04) is the list of its slots; inserting and
      removing still touch the neighbours.
    - Destructors nest; the model keeps the elements that are still to be released in a list,
      in the order in which the nested destructors visit them.  A container is dead from the
      start of its destructor on.
    - All variables are global; there is one list of containers without references, that of the
      main block.  An integer never equals the address of a container (vm_store.cpp:293).
    - Reading a field that an array does not have gives undefined; its member functions are not
      looked up. *)
From Coq Require Import List ZArith Bool Arith.
Import ListNotations.

(** A stored element: undefined, an integer, or a ContainerSlot. *)
Inductive cval := CU | CI (z : Z) | CS (s : nat).
(** A variable or a value on the stack: undefined, an integer, a container, or a ContainerSlot
    copied from the element that holds it. *)
Inductive val := VU | VI (z : Z) | VO (o : nat) | VS (s : nat).
(** ContainerSlot: src_container_ref and ptr_stk. *)
Record slot := Slot { s_src : option nat; s_cell : nat }.
(** ContainerScriptObject: elements (key and address of the StackElement), n_shares, container_slots. *)
Record cont := Cont { c_arr : bool; c_cells : list (nat * nat); c_n : nat; c_slots : list nat }.

Record hp := Hp {
  objs : nat -> option cont;
  cells : nat -> option cval;
  slots : nat -> option slot;
  vars : list val;
  zero : list nat;                 (* unreferenced_objects of the main block *)
  cyc : list nat;                  (* cyclic_container_instances *)
  nobj : nat; ncell : nat; nslot : nat
}.

(** [Script]: an error of the script; [Intern]: an exception about broken internals. *)
Inductive out (A : Type) := Fine (a : A) | Script | Intern | Crash | Endless.
Arguments Fine {A}. Arguments Script {A}. Arguments Intern {A}. Arguments Crash {A}. Arguments Endless {A}.
Definition obind {A B} (m : out A) (f : A -> out B) : out B :=
  match m with Fine a => f a | Script => Script | Intern => Intern | Crash => Crash | Endless => Endless end.
Notation "'let*' x := m 'in' f" := (obind m (fun x => f)) (at level 61, x pattern, m at next level, right associativity).

Definition up {A} (f : nat -> A) (k : nat) (v : A) : nat -> A := fun x => if x =? k then v else f x.
Definition set_objs h f := Hp f (cells h) (slots h) (vars h) (zero h) (cyc h) (nobj h) (ncell h) (nslot h).
Definition set_cells h f := Hp (objs h) f (slots h) (vars h) (zero h) (cyc h) (nobj h) (ncell h) (nslot h).
Definition set_slots h f := Hp (objs h) (cells h) f (vars h) (zero h) (cyc h) (nobj h) (ncell h) (nslot h).
Definition set_vars h l := Hp (objs h) (cells h) (slots h) l (zero h) (cyc h) (nobj h) (ncell h) (nslot h).
Definition set_zero h l := Hp (objs h) (cells h) (slots h) (vars h) l (cyc h) (nobj h) (ncell h) (nslot h).
Definition set_cyc h l := Hp (objs h) (cells h) (slots h) (vars h) (zero h) l (nobj h) (ncell h) (nslot h).
Definition put_obj h o c := set_objs h (up (objs h) o c).
Definition put_cell h a v := set_cells h (up (cells h) a v).
Definition put_slot h s v := set_slots h (up (slots h) s v).
Definition with_n (c : cont) n := Cont (c_arr c) (c_cells c) n (c_slots c).
Definition with_slots (c : cont) l := Cont (c_arr c) (c_cells c) (c_n c) l.
Definition with_cells (c : cont) l := Cont (c_arr c) l (c_n c) (c_slots c).

Definition mem (x : nat) (l : list nat) : bool := existsb (Nat.eqb x) l.
Definition del (x : nat) (l : list nat) : list nat := filter (fun y => negb (x =? y)) l.
Definition isnil {A} (l : list A) : bool := match l with [] => true | _ => false end.
Definition need {A B} (x : option A) (f : A -> out B) : out B := match x with Some a => f a | None => Crash end.

Definition alive (h : hp) (s : nat) : bool := match slots h s with Some _ => true | None => false end.
Fixpoint index_of (x : nat) (l : list nat) : nat :=
  match l with [] => 0 | y :: r => if x =? y then 0 else S (index_of x r) end.

(** List::insert, List.tcc:16-38: the first and the last node are linked to the new one. *)
Definition ring_insert (h : hp) (l : list nat) (s : nat) : out (list nat) :=
  match l with
  | [] => Fine [s]
  | f :: _ => if alive h f && alive h (last l 0) then Fine (l ++ [s]) else Crash
  end.
(** List::remove, List.tcc:42-64: the two neighbours are linked to each other. *)
Definition ring_remove (h : hp) (l : list nat) (s : nat) : out (list nat) :=
  if mem s l then
    let n := length l in let i := index_of s l in
    if alive h (nth ((i + n - 1) mod n) l 0) && alive h (nth ((i + 1) mod n) l 0) then Fine (del s l) else Crash
  else Intern.

Section Addresses.
(** The addresses of the containers: the registry of containers is sorted by them. *)
Variable addr : nat -> nat.

Fixpoint insert_at (o : nat) (l : list nat) : list nat :=
  match l with [] => [o] | x :: r => if addr o <? addr x then o :: x :: r else x :: insert_at o r end.
(** cyclic_container_instances.set and erase: MapInt.cpp:112-148, 225-236 *)
Definition cyc_set (h : hp) (o : nat) : hp := if mem o (cyc h) then h else set_cyc h (insert_at o (cyc h)).
Definition cyc_erase (h : hp) (o : nat) : out hp := if mem o (cyc h) then Fine (set_cyc h (del o (cyc h))) else Intern.

(** vm_share_object, vm_share_manager.cpp:69-97 *)
Definition share (h : hp) (o : nat) : out hp :=
  need (objs h o) (fun c =>
  if c_n c =? 0 then
    if mem o (zero h) then Fine (set_zero (put_obj h o (Some (with_n c 1))) (del o (zero h))) else Intern
  else Fine (put_obj h o (Some (with_n c (S (c_n c)))))).

(** vm_unref_shared_object, vm_share_manager.cpp:99-119, up to the test of the new count. *)
Definition unref_count (h : hp) (o : nat) : out (hp * bool) :=
  need (objs h o) (fun c =>
  match c_n c with
  | O => Intern
  | S n => Fine (put_obj h o (Some (with_n c n)), n =? 0)
  end).
(** ... with a scope block: the container waits in the list of the block, 124-128 *)
Definition unref_block (h : hp) (o : nat) : out hp :=
  let* (h1, z) := unref_count h o in
  Fine (if z then set_zero h1 (zero h1 ++ [o]) else h1).
(** delete of a container: what is left is to release its elements.  Slots that still refer to
    it would be detached (ContainerScriptObject.cpp:44-54) with the count at 0, which throws
    out of a destructor. *)
Definition die (h : hp) (o : nat) : out (hp * list nat) :=
  need (objs h o) (fun c => if isnil (c_slots c) then Fine (put_obj h o None, map snd (c_cells c)) else Crash).
(** ... without a scope block: delete at once, 121-123 *)
Definition unref_die (h : hp) (o : nat) : out (hp * list nat) :=
  let* (h1, z) := unref_count h o in if z then die h1 o else Fine (h1, []).

(** ContainerScriptObject::removeContainerSlot, ContainerScriptObject.cpp:25-42, of the
    container the slot refers to, if any. *)
Definition unlink (h : hp) (s : nat) : out (hp * list nat) :=
  need (slots h s) (fun sl =>
  match s_src sl with
  | None => Fine (h, [])
  | Some o =>
      need (objs h o) (fun c =>
      let* l := ring_remove h (c_slots c) s in
      let h1 := put_obj h o (Some (with_slots c l)) in
      let* h2 := (if isnil l then cyc_erase h1 o else Fine h1) in
      unref_die h2 o)
  end).

(** ScriptObject::unrefAndFreeStackElementContainer for all elements to be released
    (ScriptObject.cpp:47-79), ContainerSlot::deleteContainerSlot (ContainerSlot.cpp:28-34) *)
Fixpoint drain (fuel : nat) (h : hp) (w : list nat) {struct fuel} : out hp :=
  match fuel with
  | O => Endless
  | S f =>
    match w with
    | [] => Fine h
    | a :: w' =>
      need (cells h a) (fun v =>
      let h1 := put_cell h a None in
      match v with
      | CS s => let* (h2, more) := unlink h1 s in drain f (put_slot h2 s None) (more ++ w')
      | _ => drain f h1 w'
      end)
    end
  end.
Definition drain_all (h : hp) (w : list nat) : out hp := drain (S (ncell h)) h w.

Definition delete_slot (h : hp) (s : nat) : out hp :=
  let* (h1, w) := unlink h s in let* h2 := drain_all h1 w in Fine (put_slot h2 s None).

(** ContainerSlot::setSrcContainerRef, ContainerSlot.cpp:52-74 *)
Definition set_src (h : hp) (s o : nat) : out hp :=
  need (slots h s) (fun sl =>
  if (match s_src sl with Some o' => o' =? o | None => false end) then Intern else
  let* (h1, w) := unlink h s in
  let* h2 := drain_all h1 w in
  need (objs h2 o) (fun c =>
  let* l := ring_insert h2 (c_slots c) s in
  Fine (put_slot (put_obj h2 o (Some (with_slots c l))) s (Some (Slot (Some o) (s_cell sl)))))).

(** vm_assign_container_slot, vm.cpp:502-526 *)
Definition assign_slot (h : hp) (s o : nat) : out hp :=
  let* h1 := set_src h s o in
  need (slots h1 s) (fun sl =>
  need (cells h1 (s_cell sl)) (fun _ => Fine (cyc_set (put_cell h1 (s_cell sl) (Some (CS s))) o))).

Definition new_slot (h : hp) (a : nat) : hp * nat :=
  (Hp (objs h) (cells h) (up (slots h) (nslot h) (Some (Slot None a))) (vars h) (zero h) (cyc h) (nobj h) (ncell h) (S (nslot h)), nslot h).
Definition new_cell (h : hp) (v : cval) : hp * nat :=
  (Hp (objs h) (up (cells h) (ncell h) (Some v)) (slots h) (vars h) (zero h) (cyc h) (nobj h) (S (ncell h)) (nslot h), ncell h).
(** vm_create_shared_object, vm_share_manager.cpp:7-44 *)
Definition new_obj (h : hp) (arr : bool) : hp * nat :=
  (Hp (up (objs h) (nobj h) (Some (Cont arr [] 0 []))) (cells h) (slots h) (vars h) (zero h ++ [nobj h]) (cyc h) (S (nobj h)) (ncell h) (nslot h), nobj h).

Fixpoint find_cell (k : nat) (l : list (nat * nat)) : option nat :=
  match l with [] => None | (k', a) :: r => if k =? k' then Some a else find_cell k r end.
Definition key_of (c : cont) (k : nat) : nat := if c_arr c then length (c_cells c) else k.
Definition add_cell (h : hp) (o : nat) (c : cont) (k : nat) : hp * nat :=
  let '(h1, a) := new_cell h CU in (put_obj h1 o (Some (with_cells c (c_cells c ++ [(k, a)]))), a).

(** What a value refers to. *)
Inductive target := TPlain (v : cval) | TCont (o : nat).
Definition resolve (h : hp) (v : val) : out target :=
  match v with
  | VU => Fine (TPlain CU)
  | VI z => Fine (TPlain (CI z))
  | VO o => Fine (TCont o)
  | VS s => need (slots h s) (fun sl => need (s_src sl) (fun o => Fine (TCont o)))
  end.
Definition load_cell (h : hp) (a : nat) : out val :=
  need (cells h a) (fun v => Fine (match v with CU => VU | CI z => VI z | CS s => VS s end)).

Inductive expr :=
| EVar (x : nat) | EInt (z : Z) | EUndef
| ENew (arr : bool)                          (* an empty literal *)
| EPush (l : expr) (k : nat) (e : expr)      (* the literal with one more item *)
| EDot (e : expr) (k : nat)                  (* e.k *)
| EIdx (e : expr) (k : nat).                 (* e[k] *)

(** vm_push_container_item, vm_container.cpp:387-530: a new element at the end of an array, the
    field of an object emptied or made. *)
Definition push_item (h : hp) (o k : nat) (v : val) : out hp :=
  need (objs h o) (fun c =>
  let* (h1, a) :=
    match (if c_arr c then None else find_cell k (c_cells c)) with
    | Some a => need (cells h a) (fun old =>
                let* h' := (match old with CS s => delete_slot h s | _ => Fine h end) in
                Fine (put_cell h' a (Some CU), a))
    | None => Fine (add_cell h o c (key_of c k))
    end in
  let* t := resolve h1 v in
  match t with
  | TPlain x => Fine (put_cell h1 a (Some x))
  | TCont o' => let '(h2, s) := new_slot h1 a in let* h3 := assign_slot h2 s o' in share h3 o'
  end).

Fixpoint eval (h : hp) (e : expr) : out (hp * val) :=
  match e with
  | EVar x => match nth_error (vars h) x with Some v => Fine (h, v) | None => Script end
  | EInt z => Fine (h, VI z)
  | EUndef => Fine (h, VU)
  | ENew arr => let '(h1, o) := new_obj h arr in Fine (h1, VO o)
  | EPush l k e =>
      let* (h1, v) := eval h l in
      let* (h2, x) := eval h1 e in
      match v with VO o => let* h3 := push_item h2 o k x in Fine (h3, VO o) | _ => Script end
  | EDot e k =>
      let* (h1, v) := eval h e in let* t := resolve h1 v in
      match t with
      | TPlain _ => Script
      | TCont o => need (objs h1 o) (fun c =>
          if c_arr c then Fine (h1, VU)
          else match find_cell k (c_cells c) with Some a => let* x := load_cell h1 a in Fine (h1, x) | None => Fine (h1, VU) end)
      end
  | EIdx e k =>
      let* (h1, v) := eval h e in let* t := resolve h1 v in
      match t with
      | TPlain _ => Script
      | TCont o => need (objs h1 o) (fun c =>
          match find_cell k (c_cells c) with Some a => let* x := load_cell h1 a in Fine (h1, x) | None => Script end)
      end
  end.

Inductive lval := LVar (x : nat) | LDot (e : expr) (k : nat) | LIdx (e : expr) (k : nat).

(** The slot a destination pushes: vm_container.cpp:205-222, 300-326 for [e.k], which takes the
    slot the field holds already; 606-635 for [e[k]], always a new one. *)
Definition dest (h : hp) (dot : bool) (o k : nat) : out (hp * nat) :=
  need (objs h o) (fun c =>
  if dot && c_arr c then Script else
  match find_cell k (c_cells c) with
  | Some a => need (cells h a) (fun v =>
      match v with
      | CS s => if dot then Fine (h, s) else Fine (new_slot h a)
      | _ => Fine (new_slot h a)
      end)
  | None => if c_arr c then Script else let '(h1, a) := add_cell h o c k in Fine (new_slot h1 a)
  end).

(** vm_store, vm_store.cpp:34-376, into the element of slot [s] *)
Definition store (h : hp) (s : nat) (v : val) : out hp :=
  need (slots h s) (fun sl =>
  need (cells h (s_cell sl)) (fun old =>
  let* t := resolve h v in
  match t with
  | TPlain x =>
      let h1 := put_cell h (s_cell sl) (Some x) in
      match old with
      | CS s1 => delete_slot h1 s1
      | _ => match s_src sl with None => delete_slot h1 s | Some _ => Fine h1 end
      end
  | TCont o =>
      if (match s_src sl with Some o' => o' =? o | None => false end) then Fine h
      else let* h1 := assign_slot h s o in share h1 o
  end)).

Fixpoint put_var (l : list val) (x : nat) (v : val) : list val :=
  match l, x with [], _ => [] | _ :: r, O => v :: r | y :: r, S k => y :: put_var r k v end.
Definition drop_var (h : hp) (v : val) : out hp := match v with VO o => unref_block h o | _ => Fine h end.

(** vm_store into a variable *)
Definition store_var (h : hp) (x : nat) (v : val) : out hp :=
  match nth_error (vars h) x with
  | None => Script
  | Some old =>
    let* t := resolve h v in
    match t with
    | TPlain y => drop_var (set_vars h (put_var (vars h) x (match y with CI z => VI z | _ => VU end))) old
    | TCont o =>
        if (match old with VO o' => o' =? o | _ => false end) then Fine h
        else let* h1 := share (set_vars h (put_var (vars h) x (VO o))) o in drop_var h1 old
    end
  end.

Inductive stmt := Set_ (l : lval) (e : expr).
Definition run1 (h : hp) (st : stmt) : out hp :=
  match st with
  | Set_ (LVar x) e => let* (h1, v) := eval h e in store_var h1 x v
  | Set_ (LDot d k) e =>
      let* (h1, v) := eval h e in let* (h2, y) := eval h1 d in let* t := resolve h2 y in
      match t with TPlain _ => Script | TCont o => let* (h3, s) := dest h2 true o k in store h3 s v end
  | Set_ (LIdx d k) e =>
      let* (h1, v) := eval h e in let* (h2, y) := eval h1 d in let* t := resolve h2 y in
      match t with TPlain _ => Script | TCont o => let* (h3, s) := dest h2 false o k in store h3 s v end
  end.
Fixpoint run (h : hp) (p : list stmt) : out hp :=
  match p with [] => Fine h | st :: r => let* h1 := run1 h st in run h1 r end.

(** vm_remove_empty_shared_pointers, vm_share_manager.cpp:163-190, at the end of the script *)
Fixpoint sweep_list (h : hp) (l : list nat) : out hp :=
  match l with
  | [] => Fine h
  | o :: r =>
      let* (h1, w) := die (set_zero h (del o (zero h))) o in
      let* h2 := drain_all h1 w in sweep_list h2 r
  end.
Definition sweep (h : hp) : out hp := sweep_list h (zero h).

(** vm_deref_cyclic_references, vm.cpp:553-608: one slot, one container, all containers *)
Definition collect_slot (h : hp) (o s : nat) : out hp :=
  need (slots h s) (fun sl =>
  need (objs h o) (fun c =>
  let* l := ring_remove h (c_slots c) s in
  let* h1 := unref_block (put_obj h o (Some (with_slots c l))) o in
  need (cells h1 (s_cell sl)) (fun v =>
  match v with
  | CS s' => need (slots h1 s') (fun _ => Fine (put_cell (put_slot h1 s' None) (s_cell sl) (Some CU)))
  | _ => Intern
  end))).
Fixpoint collect_slots (h : hp) (o : nat) (l : list nat) : out hp :=
  match l with [] => Fine h | s :: r => let* h1 := collect_slot h o s in collect_slots h1 o r end.
(** vm_count_cyclic_references, vm.cpp:532-546 *)
Definition own_slots (h : hp) (o : nat) (l : list nat) : list nat :=
  filter (fun s => match slots h s with Some (Slot (Some o') _) => o' =? o | _ => false end) l.
Fixpoint collect (fuel : nat) (i : nat) (h : hp) {struct fuel} : out hp :=
  match fuel with
  | O => Endless
  | S f =>
    match nth_error (cyc h) i with
    | None => Fine h
    | Some o =>
      need (objs h o) (fun c =>
      if forallb (alive h) (c_slots c) then
        let l := own_slots h o (c_slots c) in
        if negb (isnil l) && (length l =? c_n c) then
          let* h1 := collect_slots h o l in
          let* h2 := cyc_erase h1 o in collect f i h2
        else collect f (S i) h
      else Crash)
    end
  end.
Definition collect_all (h : hp) : out hp := collect (S (length (cyc h))) 0 h.

(** ScriptEngine::clearGlobalVariables, ScriptEngine.cpp:1131-1204: the variables from number
    [n] on, the last one first *)
Fixpoint clear_vars (h : hp) (l : list val) : out hp :=
  match l with
  | [] => Fine h
  | v :: r =>
      let h0 := set_vars h (removelast (vars h)) in
      let* h1 := (match v with VO o => let* (h1, w) := unref_die h0 o in drain_all h1 w | _ => Fine h0 end) in
      clear_vars h1 r
  end.
Definition clear (h : hp) (n : nat) : out hp :=
  let* h1 := collect_all h in
  let* h2 := clear_vars h1 (rev (skipn n (vars h1))) in
  sweep h2.

End Addresses.

(** A program starts with [n] undefined variables and nothing else. *)
Definition start (n : nat) : hp :=
  Hp (fun _ => None) (fun _ => None) (fun _ => None) (repeat VU n) [] [] 0 0 0.
