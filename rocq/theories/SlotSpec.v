(** What programs over containers should do, and what the counts should be.

    The reference semantics has a memory of containers that are never destroyed; a container
    is what its elements are.  Nothing here mentions slots, counts or destruction. *)
From Coq Require Import List ZArith Bool Arith.
From Verif Require Import SlotModel.
Import ListNotations.

Inductive sval := SU | SI (z : Z) | SO (o : nat).
Record sp := Sp { sobj : nat -> option (bool * list (nat * sval)); svars : list sval; snext : nat }.

Fixpoint get_item (k : nat) (l : list (nat * sval)) : option sval :=
  match l with [] => None | (k', v) :: r => if k =? k' then Some v else get_item k r end.
(** The first entry with the key replaced, or a new entry at the end. *)
Fixpoint set_item (k : nat) (v : sval) (l : list (nat * sval)) : list (nat * sval) :=
  match l with [] => [(k, v)] | (k', x) :: r => if k =? k' then (k', v) :: r else (k', x) :: set_item k v r end.

Definition sput (S : sp) (o : nat) (b : bool) (l : list (nat * sval)) : sp :=
  Sp (up (sobj S) o (Some (b, l))) (svars S) (snext S).

(** A literal gets its items one after the other; an access of something that is no container,
    or of an element that does not exist, is an error; an absent field reads as undefined. *)
Fixpoint seval (S : sp) (e : expr) : option (sp * sval) :=
  match e with
  | EVar x => match nth_error (svars S) x with Some v => Some (S, v) | None => None end
  | EInt z => Some (S, SI z)
  | EUndef => Some (S, SU)
  | ENew arr => Some (Sp (up (sobj S) (snext S) (Some (arr, []))) (svars S) (Datatypes.S (snext S)), SO (snext S))
  | EPush l k e =>
      match seval S l with
      | Some (S1, SO o) =>
          match seval S1 e with
          | Some (S2, v) =>
              match sobj S2 o with
              | Some (arr, its) => Some (sput S2 o arr (set_item (if arr then length its else k) v its), SO o)
              | None => None
              end
          | None => None
          end
      | _ => None
      end
  | EDot e k =>
      match seval S e with
      | Some (S1, SO o) =>
          match sobj S1 o with
          | Some (true, _) => Some (S1, SU)
          | Some (false, its) => Some (S1, match get_item k its with Some v => v | None => SU end)
          | None => None
          end
      | _ => None
      end
  | EIdx e k =>
      match seval S e with
      | Some (S1, SO o) =>
          match sobj S1 o with
          | Some (_, its) => match get_item k its with Some v => Some (S1, v) | None => None end
          | None => None
          end
      | _ => None
      end
  end.

Fixpoint sput_var (l : list sval) (x : nat) (v : sval) : list sval :=
  match l, x with [], _ => [] | _ :: r, O => v :: r | y :: r, S k => y :: sput_var r k v end.

(** An array has the elements its literal gave it; an object gets the field. *)
Definition sstore (S : sp) (dot : bool) (o k : nat) (v : sval) : option sp :=
  match sobj S o with
  | Some (arr, its) =>
      if arr && (dot || match get_item k its with None => true | _ => false end) then None
      else Some (sput S o arr (set_item k v its))
  | None => None
  end.
Definition srun1 (S : sp) (st : stmt) : option sp :=
  match st with
  | Set_ (LVar x) e =>
      match seval S e with
      | Some (S1, v) => if x <? length (svars S1) then Some (Sp (sobj S1) (sput_var (svars S1) x v) (snext S1)) else None
      | None => None
      end
  | Set_ (LDot d k) e =>
      match seval S e with
      | Some (S1, v) => match seval S1 d with Some (S2, SO o) => sstore S2 true o k v | _ => None end
      | None => None
      end
  | Set_ (LIdx d k) e =>
      match seval S e with
      | Some (S1, v) => match seval S1 d with Some (S2, SO o) => sstore S2 false o k v | _ => None end
      | None => None
      end
  end.
Fixpoint srun (S : sp) (p : list stmt) : option sp :=
  match p with [] => Some S | st :: r => match srun1 S st with Some S1 => srun S1 r | None => None end end.
Definition sstart (n : nat) : sp := Sp (fun _ => None) (repeat SU n) 0.

(** *** Programs *)

(** Literals are built from empty literals, object literals name each key once. *)
Fixpoint keys_of (e : expr) : list nat := match e with EPush l k _ => k :: keys_of l | _ => [] end.
Fixpoint is_lit (e : expr) : bool := match e with ENew _ => true | EPush l _ _ => is_lit l | _ => false end.
Fixpoint lit_arr (e : expr) : bool := match e with ENew a => a | EPush l _ _ => lit_arr l | _ => false end.
Fixpoint wf_expr (e : expr) : Prop :=
  match e with
  | EVar _ | EInt _ | EUndef | ENew _ => True
  | EPush l k e => is_lit l = true /\ (lit_arr l = false -> ~ In k (keys_of l)) /\ wf_expr l /\ wf_expr e
  | EDot e _ | EIdx e _ => wf_expr e
  end.
Definition wf_stmt (st : stmt) : Prop :=
  match st with Set_ (LVar _) e => wf_expr e | Set_ (LDot d _) e | Set_ (LIdx d _) e => wf_expr d /\ wf_expr e end.
(** The value is not read from a container. *)
Definition direct (e : expr) : bool := match e with EDot _ _ | EIdx _ _ => false | _ => true end.
(** Fields are given variables, literals and integers, not what was read from a container. *)
Definition careful (st : stmt) : Prop := match st with Set_ (LDot _ _) e => direct e = true | _ => True end.

(** *** What a state shows *)
Definition shown_cell (h : hp) (a : nat) : sval :=
  match cells h a with
  | Some (CI z) => SI z
  | Some (CS s) => match slots h s with Some (Slot (Some o) _) => SO o | _ => SU end
  | _ => SU
  end.
Definition shown_items (h : hp) (l : list (nat * nat)) : list (nat * sval) := map (fun p => (fst p, shown_cell h (snd p))) l.
Definition shown_val (h : hp) (v : val) : sval :=
  match v with
  | VU => SU | VI z => SI z | VO o => SO o
  | VS s => match slots h s with Some (Slot (Some o) _) => SO o | _ => SU end
  end.
(** Every container that exists has the items it should have, every variable its value. *)
Definition shows (h : hp) (S : sp) : Prop :=
  nobj h = snext S /\ map (shown_val h) (vars h) = svars S /\
  forall o c, objs h o = Some c -> sobj S o = Some (c_arr c, shown_items h (c_cells c)).

(** *** References *)
Definition var_refs (h : hp) (o : nat) : nat := length (filter (fun v => match v with VO o' => o' =? o | _ => false end) (vars h)).
(** How many elements of the container hold [o]. *)
Definition held_by (h : hp) (p o : nat) : nat :=
  match objs h p with
  | Some c => length (filter (fun a => match shown_cell h (snd a) with SO o' => o' =? o | _ => false end) (c_cells c))
  | None => 0
  end.
Definition elem_refs (h : hp) (o : nat) : nat := list_sum (map (fun p => held_by h p o) (seq 0 (nobj h))).

(** Storing with brackets where a container is held: the values of the right side and of the
    destination are those of the run. *)
Definition overwrites (addr : nat -> nat) (h : hp) (st : stmt) : bool :=
  match st with
  | Set_ (LIdx d k) e =>
      match eval addr h e with
      | Fine (h1, v) =>
          match eval addr h1 d with
          | Fine (h2, y) =>
              match shown_val h2 v, shown_val h2 y with
              | SO _, SO o => match objs h2 o with
                              | Some c => match get_item k (shown_items h2 (c_cells c)) with Some (SO _) => true | _ => false end
                              | None => false
                              end
              | _, _ => false
              end
          | _ => false
          end
      | _ => false
      end
  | _ => false
  end.
Fixpoint calm (addr : nat -> nat) (h : hp) (p : list stmt) : Prop :=
  match p with
  | [] => True
  | st :: r => overwrites addr h st = false /\ match run1 addr h st with Fine h1 => calm addr h1 r | _ => True end
  end.

(** A variable leads to the container, not through element [k] of [p]. *)
Inductive leads (h : hp) (p k : nat) : nat -> Prop :=
| leads_var o : In (VO o) (vars h) -> leads h p k o
| leads_elem q i o c : leads h p k q -> (q, i) <> (p, k) -> objs h q = Some c -> get_item i (shown_items h (c_cells c)) = Some (SO o) -> leads h p k o.
(** A field that is given a container read from a container leaves it reachable without the
    field: the values of the right side and of the destination are those of the run. *)
Definition keeps (addr : nat -> nat) (h : hp) (st : stmt) : Prop :=
  match st with
  | Set_ (LDot d k) e => direct e = true \/ forall h1 v h2 y p o, eval addr h e = Fine (h1, v) -> eval addr h1 d = Fine (h2, y) ->
      shown_val h2 y = SO p -> shown_val h2 v = SO o -> leads h2 p k o
  | _ => True
  end.
Fixpoint keeping (addr : nat -> nat) (h : hp) (p : list stmt) : Prop :=
  match p with
  | [] => True
  | st :: r => keeps addr h st /\ match run1 addr h st with Fine h1 => keeping addr h1 r | _ => True end
  end.
