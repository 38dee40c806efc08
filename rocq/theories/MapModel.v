(** Model of the engine's maps, /repo/src/base/MapString.cpp and /repo/src/base/MapInt.cpp.
    The two files are the same algorithm for different key types; the differences are the
    parameters of the section:
      - [K], [cmp]: key type and order (strcmp on NUL-terminated strings / [<] on integers);
      - [SLOT]: growth step (16 in MapString.cpp:9, 10 in MapInt.cpp:9);
      - [wrap]: the machine type of [_count] ([int] in MapString.h:48, [uint16_t] in MapInt.h:49).

    Simplifications: malloc never fails; a node is identified by a fresh number and a freed
    node's fields become unreadable ([None]); keys are values (the copy made by strcpy,
    MapString.cpp:150-151, is not distinguished from the original). *)
From Coq Require Import List ZArith Bool Lia.
From Verif Require Import Base ListModel.
Import ListNotations.
Open Scope Z_scope.

Section MapModel.
Variables K V : Type.
Variable cmp : K -> K -> comparison.
Variable SLOT : Z.
Variable wrap : Z -> Z.

(** MapString.cpp:8, MapInt.cpp:8 *)
Definition MAX_ITEMS : Z := 1000000.

Record map := mkmap {
  tbl : list (option (K * nat));  (* items[0 .. _size-1]: key and node, [None] if never
                                      written or reset *)
  mcount : Z;           (* _count *)
  ring_of : clist;      (* first, last, and previous/next of every node *)
  nkey : nat -> option K;
  nval : nat -> option V;
  brk : nat             (* next unused node name *)
}.

Definition msize (m : map) : Z := Z.of_nat (length (tbl m)).

(** MapString.cpp:64-70 *)
Definition m_empty : map := mkmap [] 0 cl_empty (fun _ => None) (fun _ => None) 0.

Definition fupd {T} (f : nat -> option T) (k : nat) (v : option T) : nat -> option T :=
  fun x => if Nat.eqb x k then v else f x.

(** Key stored at an index; [None]: outside of the buffer or never written. *)
Definition key_at (m : map) (i : Z) : option K :=
  match rd (tbl m) i with Some (Some (k, _)) => Some k | _ => None end.

(** MapString.cpp:24-41, MapInt.cpp:24-41: result index or -1. [None] = undefined
    behaviour (or loop fuel exhausted). *)
Fixpoint search_loop (fuel : nat) (m : map) (key : K) (lo hi : Z) : option Z :=
  match fuel with
  | O => None
  | S f =>
    if lo <=? hi then
      let mid := (lo + hi) / 2 in
      match key_at m mid with
      | None => None
      | Some k =>
        match cmp k key with
        | Eq => Some mid
        | Lt => search_loop f m key (mid + 1) hi
        | Gt => search_loop f m key lo (mid - 1)
        end
      end
    else Some (-1)
  end.

(** MapString.cpp:13-42 *)
Definition search (m : map) (key : K) : option Z :=
  if mcount m - 1 <? 0 then Some (-1)
  else search_loop (S (Z.to_nat (mcount m))) m key 0 (mcount m - 1).

(** MapString.cpp:44-62: the [Exc] state is the unchanged map. *)
Definition m_pushSlot (m : map) : outcome map unit :=
  let t1 := if msize m =? 0 then repeat None (Z.to_nat SLOT) else tbl m in
  let m1 := mkmap t1 (mcount m) (ring_of m) (nkey m) (nval m) (brk m) in
  if msize m1 =? mcount m1 then
    if MAX_ITEMS <=? msize m1 + SLOT then Exc m1
    else Ret (mkmap (t1 ++ repeat None (Z.to_nat SLOT)) (wrap (mcount m + 1))
                    (ring_of m) (nkey m) (nval m) (brk m)) tt
  else Ret (mkmap t1 (wrap (mcount m + 1)) (ring_of m) (nkey m) (nval m) (brk m)) tt.

(** MapString.cpp:92-100 *)
Fixpoint slot_loop (fuel : nat) (m : map) (key : K) (lo hi : Z) : option Z :=
  match fuel with
  | O => None
  | S f =>
    if lo <? hi then
      let mid := (lo + hi) / 2 in
      match key_at m mid with
      | None => None
      | Some k =>
        match cmp k key with
        | Gt => slot_loop f m key lo mid
        | _ => slot_loop f m key (mid + 1) hi
        end
      end
    else Some lo
  end.

(** MapString.cpp:83-102 *)
Definition slot_pos (m : map) (key : K) : option Z :=
  if 0 <? mcount m then
    match key_at m (mcount m - 1) with
    | None => None
    | Some k =>
      match cmp k key with
      | Lt => Some (mcount m)
      | _ => slot_loop (S (Z.to_nat (mcount m))) m key 0 (mcount m - 1)
      end
    end
  else Some 0.

(** MapString.cpp:81-112 *)
Definition newSlot (m : map) (key : K) : outcome map Z :=
  match slot_pos m key with
  | None => Undef
  | Some p =>
    bind (m_pushSlot m) (fun m1 _ =>
      match for_down (Z.to_nat (mcount m1 - 1 - p)) (mcount m1 - 1)
                     (fun i t => cpy t (i - 1) t i) (tbl m1) with
      | Some t => Ret (mkmap t (mcount m1) (ring_of m1) (nkey m1) (nval m1) (brk m1)) p
      | None => Undef
      end)
  end.

(** MapString.cpp:114-162, MapInt.cpp:116-158. The new node is linked (127-141) before
    newSlot (145) can throw. *)
Definition m_set (m : map) (key : K) (v : V) : outcome map unit :=
  match search m key with
  | None => Undef
  | Some idx =>
    if idx =? -1 then
      let n := brk m in
      match ring_insert (ring_of m) n with
      | Ret r _ =>
        bind (newSlot (mkmap (tbl m) (mcount m) r (nkey m) (nval m) (S n)) key)
          (fun m2 p =>
             match wr (tbl m2) p (Some (key, n)) with
             | Some t => Ret (mkmap t (mcount m2) (ring_of m2) (fupd (nkey m2) n (Some key))
                                    (fupd (nval m2) n (Some v)) (brk m2)) tt
             | None => Undef
             end)
      | Exc _ => Undef
      | Undef => Undef
      end
    else
      match rd (tbl m) idx with
      | Some (Some (_, n)) =>
        Ret (mkmap (tbl m) (mcount m) (ring_of m) (nkey m) (fupd (nval m) n (Some v)) (brk m)) tt
      | _ => Undef
      end
  end.

(** MapString.cpp:168-186: value or "not existing". *)
Definition m_get (m : map) (key : K) : outcome map (option V) :=
  match search m key with
  | None => Undef
  | Some idx =>
    if idx =? -1 then Ret m None
    else match rd (tbl m) idx with
         | Some (Some (_, n)) => match nval m n with Some v => Ret m (Some v) | None => Undef end
         | _ => Undef
         end
  end.

(** MapString.cpp:72-74 *)
Definition m_exist (m : map) (key : K) : outcome map bool :=
  match search m key with
  | None => Undef
  | Some idx => Ret m (negb (idx =? -1))
  end.

(** MapInt.cpp:188-223 after the bound check; MapString.cpp:211-242. *)
Definition erase_idx (m : map) (idx : Z) : outcome map unit :=
  match rd (tbl m) idx with
  | Some (Some (_, n)) =>
    match ring_remove true (ring_of m) n with
    | Ret r _ =>
      match for_up (Z.to_nat (mcount m - 1 - idx)) idx (fun i t => cpy t (i + 1) t i) (tbl m) with
      | Some t =>
        match wr t (mcount m - 1) None with
        | Some t' => Ret (mkmap t' (wrap (mcount m - 1)) r (fupd (nkey m) n None)
                                (fupd (nval m) n None) (brk m)) tt
        | None => Undef
        end
      | None => Undef
      end
    | _ => Undef
    end
  | _ => Undef
  end.

(** MapString.cpp:203-243, MapInt.cpp:225-235 *)
Definition m_erase (m : map) (key : K) : outcome map unit :=
  match search m key with
  | None => Undef
  | Some idx => if idx =? -1 then Exc m else erase_idx m idx
  end.

(** MapString.cpp:249-282. The walk that frees the nodes is modelled by making every node
    unreadable; node names are not reused. *)
Definition m_clear (m : map) : map :=
  mkmap [] 0 cl_empty (fun _ => None) (fun _ => None) (brk m).

(** MapString.cpp:76-79 *)
Definition m_count (m : map) : Z := mcount m.

(** MapStringIterator.cpp:17-56: [for (it = begin(); !it.end(); it.next())] collecting
    [it.key], [it.value]. *)
Fixpoint iter_loop (fuel : nat) (m : map) (cur : nat) : option (list (K * V)) :=
  match fuel with
  | O => None
  | S f =>
    match nkey m cur, nval m cur, next (heap (ring_of m)) cur with
    | Some k, Some v, Some nx =>
      if eqo (first (ring_of m)) nx then Some [(k, v)]
      else match iter_loop f m nx with
           | Some r => Some ((k, v) :: r)
           | None => None
           end
    | _, _, _ => None
    end
  end.
Definition m_iterate (m : map) : outcome map (list (K * V)) :=
  match first (ring_of m) with
  | None => Ret m []
  | Some f => match iter_loop (S (brk m)) m f with
              | Some l => Ret m l
              | None => Undef
              end
  end.

(** Histories. *)
Inductive mop := MSet (k : K) (v : V) | MGet (k : K) | MExist (k : K) | MErase (k : K)
               | MCount | MIterate | MClear.
Inductive mobs := ODone | OFail | OGot (v : option V) | OBool (b : bool) | OCount (n : Z)
                | OItems (l : list (K * V)).

Definition mstep (o : mop) (m : map) : option (map * mobs) :=
  let fin {A} (r : outcome map A) (f : A -> mobs) :=
    match r with Ret m' a => Some (m', f a) | Exc m' => Some (m', OFail) | Undef => None end in
  match o with
  | MSet k v => fin (m_set m k v) (fun _ => ODone)
  | MGet k => fin (m_get m k) OGot
  | MExist k => fin (m_exist m k) OBool
  | MErase k => fin (m_erase m k) (fun _ => ODone)
  | MCount => Some (m, OCount (m_count m))
  | MIterate => fin (m_iterate m) OItems
  | MClear => Some (m_clear m, ODone)
  end.

Fixpoint mrun (os : list mop) (m : map) : option (map * list mobs) :=
  match os with
  | [] => Some (m, [])
  | o :: r => match mstep o m with
              | Some (m', x) => match mrun r m' with
                                | Some (m'', xs) => Some (m'', x :: xs)
                                | None => None
                                end
              | None => None
              end
  end.

End MapModel.

Arguments mkmap {K V}. Arguments tbl {K V}. Arguments mcount {K V}. Arguments ring_of {K V}.
Arguments nkey {K V}. Arguments nval {K V}. Arguments brk {K V}. Arguments msize {K V}.
Arguments m_empty {K V}. Arguments key_at {K V}. Arguments search_loop {K V}. Arguments search {K V}.
Arguments m_pushSlot {K V}. Arguments slot_loop {K V}. Arguments slot_pos {K V}. Arguments newSlot {K V}.
Arguments m_set {K V}. Arguments m_get {K V}. Arguments m_exist {K V}. Arguments erase_idx {K V}.
Arguments m_erase {K V}. Arguments m_clear {K V}. Arguments m_count {K V}. Arguments iter_loop {K V}.
Arguments m_iterate {K V}. Arguments mstep {K V}. Arguments mrun {K V}.
Arguments MSet {K V}. Arguments MGet {K V}. Arguments MExist {K V}. Arguments MErase {K V}.
Arguments MCount {K V}. Arguments MIterate {K V}. Arguments MClear {K V}.
Arguments ODone {K V}. Arguments OFail {K V}. Arguments OGot {K V}. Arguments OBool {K V}.
Arguments OCount {K V}. Arguments OItems {K V}.

(** strcmp on byte strings (bytes as 0..255, i.e. unsigned char): only the sign of the
    result is used by the callers. A NUL-free C string is the list of its bytes. *)
Fixpoint strcmp (a b : list Z) : comparison :=
  match a, b with
  | [], [] => Eq
  | [], _ => Lt
  | _, [] => Gt
  | x :: a', y :: b' => match Z.compare x y with Eq => strcmp a' b' | c => c end
  end.

(** MapString: keys are strings, 16 slots, [int] counter. *)
Definition str_run {V} := @mrun (list Z) V strcmp 16 (fun n => n).
Definition str_set {V} := @m_set (list Z) V strcmp 16 (fun n => n).

(** MapInt: keys are integers, 10 slots, 16-bit counter. *)
Definition wrap16 (n : Z) : Z := n mod 65536.
Definition int_run {V} := @mrun Z V Z.compare 10 wrap16.
Definition int_set {V} := @m_set Z V Z.compare 10 wrap16.
