(** * What a for-in loop over an array, a string or an object means: for each
      element, in order, the variables get key and value and the body runs once. *)
From Coq Require Import ZArith List Bool Lia.
From Verif Require Import Base FloatModel ListModel MapModel ExprModel VmModel ExprSpec StmtModel StmtSpec IterModel.
Import ListNotations.
Local Open Scope Z_scope.

Section Spec.
Variable X : Type.
Variable R : rest X.
Notation S_ := (ISem R).
Notation world := (iworld X).

(** Keys and values of a container, in order. *)
Definition numbered (vs : list ival) : list (ival * ival) :=
  combine (List.map (fun i => VInt (Z.of_nat i)) (seq 0 (length vs))) vs.
Definition entries (k : container) : option (list (ival * ival)) :=
  match k with
  | CArr l => Some (numbered l)
  | CStr s => Some (numbered (List.map (fun b => VInt (schar b)) s))
  | CObj m =>
      match m_iterate m with
      | Base.Ret _ l => Some (List.map (fun p => (VStr (fst p), snd p)) l)
      | _ => None
      end
  end.

(** Where the iterator stands at element number [j] of [len]. *)
Definition pos (c : nat) (k : container) (len j : nat) : itpos :=
  match k with
  | CObj m => PNode c (Nat.iter j (fun o => match o with Some n => next (heap (ring_of m)) n | None => None end)
                         (first (ring_of m))) (len <=? j)%nat
  | _ => PIdx c j
  end.

(** One variable gets the value; of two the first gets the key and the second
    the value.  With three and more the first is undefined, the second gets the
    key, the third the value and the others are undefined. *)
Definition give (xs : list nat) (k v : ival) (w : world) : world :=
  match xs with
  | [] => w
  | [x] => set_var (Local x) v w
  | [x; y] => set_var (Local x) k (set_var (Local y) v w)
  | x :: y :: z :: l =>
      set_var (Local x) VUndef (set_var (Local y) k (set_var (Local z) v
        (fold_right (fun u w' => set_var (Local u) VUndef w') w l)))
  end.

(** The loop over the elements [es]; [move j w] is the world in which the hidden
    iterator has gone on to element number [j]. *)
Inductive visits (body : sden S_) (xs : list nat) (move : nat -> world -> world)
  : nat -> list (ival * ival) -> world -> out S_ -> Prop :=
| vi_end : forall j w, visits body xs move j [] w (ONorm S_ w)
| vi_next : forall j k v es w r1 w2 r, terminates S_ body (give xs k v w) r1 ->
    r1 = ONorm S_ w2 \/ r1 = OCont S_ w2 ->
    visits body xs move (S j) es (move (S j) w2) r -> visits body xs move j ((k, v) :: es) w r
| vi_break : forall j k v es w w2, terminates S_ body (give xs k v w) (OBrk S_ w2) ->
    visits body xs move j ((k, v) :: es) w (ONorm S_ w2)
| vi_return : forall j k v es w vs w2, terminates S_ body (give xs k v w) (ORet S_ vs w2) ->
    visits body xs move j ((k, v) :: es) w (ORet S_ vs w2)
| vi_error : forall j k v es w w2, terminates S_ body (give xs k v w) (OErr S_ w2) ->
    visits body xs move j ((k, v) :: es) w (OErr S_ w2).

(** Element number [i] of something indexed, and its size. *)
Definition size (k : container) : nat :=
  match k with CArr l => length l | CStr s => length s | CObj _ => 0%nat end.
Definition item (k : container) (i : nat) : ival :=
  match k with
  | CArr l => nth i l VUndef
  | CStr s => match nth_error s i with Some b => VInt (schar b) | None => VUndef end
  | CObj _ => VUndef
  end.
Definition indexed (k : container) : bool := match k with CObj _ => false | _ => true end.

(** The loop over something indexed that the body may change: in each round the
    element with the next index is taken from the container as it is then; the
    loop ends when there is none. *)
Inductive rounds (body : sden S_) (xs : list nat) (c n : nat) : nat -> world -> out S_ -> Prop :=
| ro_end : forall i w k, iheap w c = Some k -> (size k <= i)%nat -> rounds body xs c n i w (ONorm S_ w)
| ro_next : forall i i' w k r1 w2 k2 r, iheap w c = Some k -> (i < size k)%nat ->
    terminates S_ body (give xs (VInt (Z.of_nat i)) (item k i) w) r1 ->
    r1 = ONorm S_ w2 \/ r1 = OCont S_ w2 -> iheap w2 c = Some k2 ->
    i' = (if (i <? size k2)%nat then S i else i) ->
    rounds body xs c n i' (set_iter n (PIdx c i') w2) r ->
    rounds body xs c n i w r
| ro_gone : forall i w k r1 w2, iheap w c = Some k -> (i < size k)%nat ->
    terminates S_ body (give xs (VInt (Z.of_nat i)) (item k i) w) r1 ->
    r1 = ONorm S_ w2 \/ r1 = OCont S_ w2 -> iheap w2 c = None ->
    rounds body xs c n i w (OErr S_ w2)
| ro_break : forall i w k w2, iheap w c = Some k -> (i < size k)%nat ->
    terminates S_ body (give xs (VInt (Z.of_nat i)) (item k i) w) (OBrk S_ w2) ->
    rounds body xs c n i w (ONorm S_ w2)
| ro_return : forall i w k vs w2, iheap w c = Some k -> (i < size k)%nat ->
    terminates S_ body (give xs (VInt (Z.of_nat i)) (item k i) w) (ORet S_ vs w2) ->
    rounds body xs c n i w (ORet S_ vs w2)
| ro_error : forall i w k w2, iheap w c = Some k -> (i < size k)%nat ->
    terminates S_ body (give xs (VInt (Z.of_nat i)) (item k i) w) (OErr S_ w2) ->
    rounds body xs c n i w (OErr S_ w2).

(** The body leaves the container (number [c], contents [k]), the iterator
    (number [n]) and the hidden variable alone. *)
Definition hidden (it n : nat) (w : world) : Prop := ivars w (Local it) = VIter n.
Definition respects (body : sden S_) (it n : nat) : Prop :=
  forall w r w2, hidden it n w -> terminates S_ body w r -> r = ONorm S_ w2 \/ r = OCont S_ w2 ->
  hidden it n w2 /\ iters w2 n = iters w n.
Definition preserves (body : sden S_) (it n c : nat) (k : container) : Prop :=
  respects body it n /\
  forall w r w2, hidden it n w -> iheap w c = Some k -> terminates S_ body w r ->
  r = ONorm S_ w2 \/ r = OCont S_ w2 -> iheap w2 c = Some k.

(** An array or string stays one, as long as it exists. *)
Definition keeps_kind (body : sden S_) (it n c : nat) : Prop :=
  forall w r w2 k2, hidden it n w -> (forall k, iheap w c = Some k -> indexed k = true) -> terminates S_ body w r ->
  r = ONorm S_ w2 \/ r = OCont S_ w2 -> iheap w2 c = Some k2 -> indexed k2 = true.

(** The world in which the loop starts: a new iterator at the first element. *)
Definition started (it c : nat) (k : container) (w : world) : world :=
  set_var (Local it) (VIter (nits w)) (new_iter (it_start c k) w).

(** What the end of the loop's own scope makes of an outcome. *)
Definition left_scope (z : Z) (r : out S_) : out S_ :=
  match r with
  | ONorm _ w => ONorm S_ (r_pop X R z w)
  | OBrk _ w => OBrk S_ (r_pop X R z w)
  | OCont _ w => OCont S_ (r_pop X R z w)
  | ORet _ vs w => ORet S_ vs (r_pop X R z w)
  | OErr _ w => OErr S_ w
  end.

End Spec.
