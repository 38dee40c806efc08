(** Model of the engine's growable array, /repo/src/base/Vector.tcc.

    Simplifications: element values are copied by value (the template's element
    type has no observable copy constructor and no [operator=] side effects);
    [new] never fails; arguments passed by reference do not alias the buffer
    being reallocated (except [concat] of a vector with itself, which is covered
    because the source is passed by value). *)
From Coq Require Import List ZArith Lia Bool.
From Verif Require Import Base.
Import ListNotations.
Open Scope Z_scope.

Section VectorModel.
Variable A : Type.

(** Vector.h:51-56. [items = None] is the NULL pointer; a cell [None] is a cell
    of [new _T[n]] that was never written. [size] is the member [_size]. *)
Record vec := mkvec { items : option (list (option A)); count : Z; size : Z }.

(** Vector.tcc:6-7 *)
Definition MAX_ELEMENTS : Z := 2000000.
Definition EXPAND : Z := 16.

(** Vector.tcc:69-74, constructor. *)
Definition v_empty : vec := mkvec None 0 0.

(** The buffer behind the pointer; NULL behaves as an array without cells. *)
Definition buf (v : vec) : list (option A) :=
  match items v with Some m => m | None => [] end.

(** [new _T[n]] *)
Definition fresh (n : Z) : list (option A) := repeat None (Z.to_nat n).

(** Vector.tcc:23 [int new_size = _size + _size*1.5] (double, truncated). *)
Definition grown (n : Z) : Z := (n * 5) / 2.

(** [for (i = 0; i < n; i++) dst[i + d] = src[i + so]] *)
Definition copy_loop (n : Z) (src : list (option A)) (so : Z) (dst : list (option A)) (d : Z) :=
  for_up (Z.to_nat n) 0 (fun i m => cpy src (i + so) m (i + d)) dst.

(** Vector.tcc:14-48 *)
Definition pushSlot (v : vec) : outcome vec unit :=
  let v1 := if size v =? 0 then mkvec (Some (fresh EXPAND)) (count v) EXPAND else v in
  if size v1 =? count v1 then
    if MAX_ELEMENTS <=? size v1 + EXPAND then Exc v1
    else
      match copy_loop (count v1) (buf v1) 0 (fresh (grown (size v1))) 0 with
      | Some m => Ret (mkvec (Some m) (count v1 + 1) (grown (size v1))) tt
      | None => Undef
      end
  else Ret (mkvec (items v1) (count v1 + 1) (size v1)) tt.

(** [items[i] = x] on a vector. *)
Definition set_item (v : vec) (i : Z) (x : A) : outcome vec unit :=
  match wr (buf v) i (Some x) with
  | Some m => Ret (mkvec (Some m) (count v) (size v)) tt
  | None => Undef
  end.

(** Vector.tcc:168-175 *)
Definition push (v : vec) (x : A) : outcome vec unit :=
  bind (pushSlot v) (fun v' _ => set_item v' (count v' - 1) x).

(** The check [(size_t)_pos >= (size_t)_size] of Vector.tcc:93, 102, 110; a
    negative position converts to a huge unsigned number. *)
Definition out_of_size (v : vec) (pos : Z) : bool := (pos <? 0) || (size v <=? pos).

(** Vector.tcc:91-98 *)
Definition set (v : vec) (pos : Z) (x : A) : outcome vec unit :=
  if out_of_size v pos then Exc v else set_item v pos x.

(** Vector.tcc:100-106. The result is the cell, [None] for a never-written one. *)
Definition get (v : vec) (pos : Z) : outcome vec (option A) :=
  if out_of_size v pos then Exc v
  else match rd (buf v) pos with
       | Some c => Ret v c
       | None => Undef
       end.

(** Vector.tcc:108-120 *)
Definition erase (v : vec) (pos : Z) : outcome vec unit :=
  if out_of_size v pos then Exc v
  else
    match for_up (Z.to_nat (count v - 1 - pos)) pos (fun i m => cpy m (i + 1) m i) (buf v) with
    | Some m => Ret (mkvec (match items v with Some _ => Some m | None => None end)
                           (count v - 1) (size v)) tt
    | None => Undef
    end.

(** Vector.tcc:122-128 *)
Definition pop (v : vec) : outcome vec unit :=
  if count v =? 0 then Exc v else erase v (count v - 1).

(** Vector.tcc:130-166 *)
Definition resize (v : vec) (n : Z) : outcome vec unit :=
  if n <=? size v then Ret (mkvec (items v) n (size v)) tt
  else if MAX_ELEMENTS <=? n then Exc v
  else match copy_loop (count v) (buf v) 0 (fresh n) 0 with
       | Some m => Ret (mkvec (Some m) n n) tt
       | None => Undef
       end.

(** Vector.tcc:182-246. [n = -1] is [npos]. *)
Definition insert_vec (v : vec) (pos : Z) (src : vec) (n0 : Z) : outcome vec unit :=
  if count src =? 0 then Ret v tt
  else
    let n := if n0 =? -1 then count src else n0 in
    if count src <? n then Exc v
    else if count v <? pos then Exc v
    else
      let grow := size v <=? n + count v in
      let v1 := if grow then mkvec (items v) (count v) (n + count v) else v in
      if grow && (MAX_ELEMENTS <=? size v1) then Exc v1
      else
        match copy_loop pos (buf v1) 0 (fresh (size v1)) 0 with
        | None => Undef
        | Some m1 =>
          match copy_loop n (buf src) 0 m1 pos with
          | None => Undef
          | Some m2 =>
            match copy_loop (count v1 - pos) (buf v1) pos m2 (pos + n) with
            | None => Undef
            | Some m3 => Ret (mkvec (Some m3) (count v1 + count src) (size v1)) tt
            end
          end
        end.

(** Vector.tcc:177-180 *)
Definition concat (v src : vec) : outcome vec unit := insert_vec v (count v) src (count src).

(** Vector.tcc:248-263 *)
Definition insert (v : vec) (pos : Z) (x : A) : outcome vec unit :=
  if count v + 1 <? pos then Exc v
  else
    bind (pushSlot v) (fun v' _ =>
      match for_down (Z.to_nat (count v' - 1 - pos)) (count v' - 1)
                     (fun i m => cpy m (i - 1) m i) (buf v') with
      | Some m => set_item (mkvec (Some m) (count v') (size v')) pos x
      | None => Undef
      end).

(** Vector.tcc:265-274 *)
Definition clear (v : vec) : vec := v_empty.

(** Vector.tcc:51-67, with [src] another object. *)
Definition copy_from (v src : vec) : outcome vec unit :=
  match items src with
  | None => Ret v tt
  | Some sb =>
    match copy_loop (count src) sb 0 (fresh (size src)) 0 with
    | Some m => Ret (mkvec (Some m) (count src) (size src)) tt
    | None => Undef
    end
  end.

(** Vector.tcc:84-89, operator=. *)
Definition assign (v src : vec) : outcome vec unit := copy_from v src.

(** [v = v]: [clear()] runs first on the very object that is then read, so the
    source length and size are 0 and [new _T[0]] is the new buffer. *)
Definition assign_self (v : vec) : outcome vec unit :=
  match items v with
  | None => Ret v tt
  | Some _ => Ret (mkvec (Some (fresh 0)) 0 0) tt
  end.

(** What a caller can observe: the length and the readable cells. *)
Definition length_of (v : vec) : Z := count v.

(** Histories of operations. *)
Inductive vop :=
| VPush (x : A) | VPop | VSet (i : Z) (x : A) | VGet (i : Z)
| VInsert (i : Z) (x : A) | VErase (i : Z)
| VConcat (src : vec) | VInsertVec (i : Z) (src : vec) | VClear | VLength.

(** Observation made by an operation: a value read, a length, nothing. *)
Inductive vobs := OVal (x : option A) | OLen (n : Z) | ONone.

Definition quiet (o : outcome vec unit) : outcome vec vobs :=
  bind o (fun v _ => Ret v ONone).

Definition vstep (o : vop) (v : vec) : outcome vec vobs :=
  match o with
  | VPush x => quiet (push v x)
  | VPop => quiet (pop v)
  | VSet i x => quiet (set v i x)
  | VGet i => bind (get v i) (fun v c => Ret v (OVal c))
  | VInsert i x => quiet (insert v i x)
  | VErase i => quiet (erase v i)
  | VConcat s => quiet (concat v s)
  | VInsertVec i s => quiet (insert_vec v i s (-1))
  | VClear => Ret (clear v) ONone
  | VLength => Ret v (OLen (length_of v))
  end.

Fixpoint vrun (os : list vop) (v : vec) : outcome vec (list vobs) :=
  match os with
  | [] => Ret v []
  | o :: r => bind (vstep o v) (fun v' x => bind (vrun r v') (fun v'' xs => Ret v'' (x :: xs)))
  end.

End VectorModel.

Arguments mkvec {A}. Arguments items {A}. Arguments count {A}. Arguments size {A}.
Arguments v_empty {A}. Arguments buf {A}. Arguments pushSlot {A}. Arguments set_item {A}.
Arguments push {A}. Arguments out_of_size {A}. Arguments set {A}. Arguments get {A}.
Arguments erase {A}. Arguments pop {A}. Arguments resize {A}. Arguments insert_vec {A}.
Arguments concat {A}. Arguments insert {A}. Arguments clear {A}. Arguments copy_from {A}.
Arguments assign {A}. Arguments assign_self {A}. Arguments length_of {A}.
Arguments fresh {A}. Arguments copy_loop {A}.
Arguments VPush {A}. Arguments VPop {A}. Arguments VSet {A}. Arguments VGet {A}.
Arguments VInsert {A}. Arguments VErase {A}. Arguments VConcat {A}. Arguments VInsertVec {A}.
Arguments VClear {A}. Arguments VLength {A}.
Arguments OVal {A}. Arguments OLen {A}. Arguments ONone {A}.
Arguments quiet {A}. Arguments vstep {A}. Arguments vrun {A}.
