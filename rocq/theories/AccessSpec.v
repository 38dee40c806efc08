(** Arrays, objects and strings as values: what programs of assignments, literals and indexed
    accesses mean. *)
From Coq Require Import List ZArith Bool SpecFloat.
From Verif Require Import Base FloatModel StringModel AccessModel.
Import ListNotations.
Local Open Scope Z_scope.

(** Strings are values, arrays and objects are referred to. *)
Inductive value :=
| VU | VN | VI (z : Z) | VF (f : f64) | VB (b : bool) | VFun (f : Z) | VTy (t : Z)
| VText (t : list Z) | VRef (c : nat).

(** Containers; the first one holds the variables. *)
Definition state := list (cont value).

(** [fields ks vs k v]: field [k] holds [v]. *)
Definition at_key {A} (ks : list (list Z)) (vs : list A) (k : list Z) (p : nat) (v : A) : Prop :=
  nth_error ks p = Some k /\ (forall q, (q < p)%nat -> nth_error ks q <> Some k) /\ nth_error vs p = Some v.

(** [changed s s' c i v]: [s'] is [s] but for cell [i] of container [c], which is [v]. *)
Definition changed (s s' : state) (c i : nat) (v : value) : Prop :=
  List.length s' = List.length s /\
  (forall d, d <> c -> nth_error s' d = nth_error s d) /\
  exists ks vs vs', nth_error s c = Some (Cont ks vs) /\ nth_error s' c = Some (Cont ks vs') /\
    (i < List.length vs)%nat /\ List.length vs' = List.length vs /\
    nth_error vs' i = Some v /\ forall j, j <> i -> nth_error vs' j = nth_error vs j.
(** [added s s' c k v]: container [c] got one more element. *)
Definition added (s s' : state) (c : nat) (k : option (list Z)) (v : value) : Prop :=
  List.length s' = List.length s /\
  (forall d, d <> c -> nth_error s' d = nth_error s d) /\
  match k with
  | None => exists vs, nth_error s c = Some (Cont None vs) /\ nth_error s' c = Some (Cont None (vs ++ [v]))
  | Some k => exists ks vs, nth_error s c = Some (Cont (Some ks) vs) /\ ~ In k ks /\
                            nth_error s' c = Some (Cont (Some (ks ++ [k])) (vs ++ [v]))
  end.

Definition const_value (k : konst) : value :=
  match k with KU => VU | KN => VN | KI z => VI z | KF f => VF f | KB b => VB b | KS t => VText t end.

(** A text in which no backslash has a character behind it: stores keep it as it is. *)
Definition no_escape (t : list Z) : Prop := forall a e b, t <> a ++ 92 :: e :: b.
Definition tidy (v : value) : Prop := match v with VText t => no_escape t | _ => True end.
(** An [int]. *)
Definition fits32 (z : Z) : Prop := - 2 ^ 31 <= z < 2 ^ 31.

Inductive Means : state -> expr -> state -> value -> Prop :=
| M_const s k : Means s (EK k) s (const_value k)
| M_var s x ks vs v : nth_error s 0 = Some (Cont ks vs) -> nth_error vs x = Some v -> Means s (EVar x) s v
| M_elem s a s1 i s2 c z vs v :
    Means s a s1 (VRef c) -> Means s1 i s2 (VI z) -> nth_error s2 c = Some (Cont None vs) ->
    0 <= z -> fits32 z -> nth_error vs (Z.to_nat z) = Some v -> Means s (EIdx a i) s2 v
| M_field s a s1 i s2 c k ks vs p v :
    Means s a s1 (VRef c) -> Means s1 i s2 (VText k) -> nth_error s2 c = Some (Cont (Some ks) vs) ->
    at_key ks vs k p v -> Means s (EIdx a i) s2 v
| M_char s a s1 i s2 t z b :
    Means s a s1 (VText t) -> Means s1 i s2 (VI z) -> 0 <= z ->
    nth_error t (Z.to_nat z) = Some b -> 0 <= b < 128 -> Means s (EIdx a i) s2 (VI b)
| M_lit s l s1 c : Makes s l s1 c -> Means s (ELit l) s1 (VRef c)
with Makes : state -> lit -> state -> nat -> Prop :=
| K_arr s : Makes s LArr (s ++ [Cont None []]) (List.length s)
| K_obj s : Makes s LObj (s ++ [Cont (Some []) []]) (List.length s)
| K_push s l s1 c e s2 v s3 :
    Makes s l s1 c -> Means s1 e s2 v -> tidy v -> added s2 s3 c None v -> Makes s (LPush l e) s3 c
| K_field s l s1 c k e s2 v s3 :
    Makes s l s1 c -> Means s1 e s2 v -> tidy v -> added s2 s3 c (Some k) v -> Makes s (LField l k e) s3 c
| K_again s l s1 c k e s2 v s3 ks vs p w :
    Makes s l s1 c -> Means s1 e s2 v -> tidy v -> nth_error s2 c = Some (Cont (Some ks) vs) ->
    at_key ks vs k p w -> changed s2 s3 c p v -> Makes s (LField l k e) s3 c.

(** Errors: an index outside the array, a key the object lacks, an index of another type than
    the container's, and no container at all. *)
Definition no_container (v : value) : Prop := match v with VRef _ | VText _ => False | _ => True end.
Inductive Fails : state -> expr -> Prop :=
| F_left s a i : Fails s a -> Fails s (EIdx a i)
| F_right s a i s1 v : Means s a s1 v -> Fails s1 i -> Fails s (EIdx a i)
| F_value s a i s1 v s2 w : Means s a s1 v -> Means s1 i s2 w -> no_container v -> Fails s (EIdx a i)
| F_range s a i s1 c s2 z vs :
    Means s a s1 (VRef c) -> Means s1 i s2 (VI z) -> nth_error s2 c = Some (Cont None vs) ->
    fits32 z -> ~ 0 <= z < Z.of_nat (List.length vs) -> Fails s (EIdx a i)
| F_index s a i s1 c s2 w vs :
    Means s a s1 (VRef c) -> Means s1 i s2 w -> nth_error s2 c = Some (Cont None vs) ->
    (forall z, w <> VI z) -> (forall f, w <> VF f) -> Fails s (EIdx a i)
| F_missing s a i s1 c s2 k ks vs :
    Means s a s1 (VRef c) -> Means s1 i s2 (VText k) -> nth_error s2 c = Some (Cont (Some ks) vs) ->
    ~ In k ks -> Fails s (EIdx a i)
| F_key s a i s1 c s2 w ks vs :
    Means s a s1 (VRef c) -> Means s1 i s2 w -> nth_error s2 c = Some (Cont (Some ks) vs) ->
    (forall k, w <> VText k) -> Fails s (EIdx a i)
| F_char s a i s1 t s2 w :
    Means s a s1 (VText t) -> Means s1 i s2 w -> (forall z, w <> VI z) -> Fails s (EIdx a i)
| F_lit s l : FailsLit s l -> Fails s (ELit l)
with FailsLit : state -> lit -> Prop :=
| F_push_left s l e : FailsLit s l -> FailsLit s (LPush l e)
| F_push s l e s1 c : Makes s l s1 c -> Fails s1 e -> FailsLit s (LPush l e)
| F_field_left s l k e : FailsLit s l -> FailsLit s (LField l k e)
| F_field s l k e s1 c : Makes s l s1 c -> Fails s1 e -> FailsLit s (LField l k e).

(** Where a string that can be written to is kept. *)
Inductive Place : state -> expr -> state -> nat -> nat -> Prop :=
| P_var s x ks vs v : nth_error s 0 = Some (Cont ks vs) -> nth_error vs x = Some v -> Place s (EVar x) s 0 x
| P_elem s a s1 i s2 c z vs :
    Means s a s1 (VRef c) -> Means s1 i s2 (VI z) -> nth_error s2 c = Some (Cont None vs) ->
    0 <= z < Z.of_nat (List.length vs) -> fits32 z -> Place s (EIdx a i) s2 c (Z.to_nat z)
| P_field s a s1 i s2 c k ks vs p v :
    Means s a s1 (VRef c) -> Means s1 i s2 (VText k) -> nth_error s2 c = Some (Cont (Some ks) vs) ->
    at_key ks vs k p v -> Place s (EIdx a i) s2 c p.

(** A statement. *)
Inductive Does : state -> stmt -> state -> Prop :=
| D_var s e s1 v x s2 : Means s e s1 v -> tidy v -> changed s1 s2 0 x v -> Does s (SSet (DVar x) e) s2
| D_elem s e s1 v a s2 c i s3 z vs s4 :
    Means s e s1 v -> tidy v -> Means s1 a s2 (VRef c) -> Means s2 i s3 (VI z) ->
    nth_error s3 c = Some (Cont None vs) -> 0 <= z -> fits32 z -> changed s3 s4 c (Z.to_nat z) v ->
    Does s (SSet (DIdx a i) e) s4
| D_field s e s1 v a s2 c i s3 k ks vs p w s4 :
    Means s e s1 v -> tidy v -> Means s1 a s2 (VRef c) -> Means s2 i s3 (VText k) ->
    nth_error s3 c = Some (Cont (Some ks) vs) -> at_key ks vs k p w -> changed s3 s4 c p v ->
    Does s (SSet (DIdx a i) e) s4
| D_new s e s1 v a s2 c i s3 k s4 :
    Means s e s1 v -> tidy v -> Means s1 a s2 (VRef c) -> Means s2 i s3 (VText k) ->
    added s3 s4 c (Some k) v -> Does s (SSet (DIdx a i) e) s4
| D_char s e s1 n a s2 c p i s3 z ks vs t s4 :
    Means s e s1 (VI n) -> 0 < n < 256 -> Place s1 a s2 c p -> Means s2 i s3 (VI z) ->
    nth_error s3 c = Some (Cont ks vs) -> nth_error vs p = Some (VText t) ->
    0 <= z < Z.of_nat (List.length t) ->
    changed s3 s4 c p (VText (firstn (Z.to_nat z) t ++ n :: skipn (S (Z.to_nat z)) t)) ->
    Does s (SSet (DIdx a i) e) s4.
Inductive DoesAll : state -> list stmt -> state -> Prop :=
| DA_nil s : DoesAll s [] s
| DA_cons s st s1 ss s2 : Does s st s1 -> DoesAll s1 ss s2 -> DoesAll s (st :: ss) s2.

(** A statement is an error when its right side is, when the container or the index of its
    destination is, or when the destination is none. *)
Inductive DoesFail : state -> stmt -> Prop :=
| DF_rhs s d e : Fails s e -> DoesFail s (SSet d e)
| DF_dest s d e s1 v a i : d = DIdx a i -> Means s e s1 v -> Fails s1 a -> DoesFail s (SSet d e)
| DF_index s d e s1 v a i s2 w : d = DIdx a i -> Means s e s1 v -> Means s1 a s2 w -> Fails s2 i -> DoesFail s (SSet d e)
| DF_value s d e s1 v a i s2 w s3 u :
    d = DIdx a i -> Means s e s1 v -> Means s1 a s2 w -> Means s2 i s3 u -> no_container w -> DoesFail s (SSet d e)
| DF_range s d e s1 v a i s2 c s3 z vs :
    d = DIdx a i -> Means s e s1 v -> Means s1 a s2 (VRef c) -> Means s2 i s3 (VI z) ->
    nth_error s3 c = Some (Cont None vs) -> fits32 z -> ~ 0 <= z < Z.of_nat (List.length vs) -> DoesFail s (SSet d e).

(** ** What a memory shows *)
Definition shown (ts : list (list Z)) (x : cell) : value :=
  match x with
  | CU => VU | CN => VN | CI z => VI z | CF f => VF f | CB b => VB b | CFun f => VFun f | CTy t => VTy t
  | CStr r => match nth_error ts r with Some t => VText t | None => VU end
  | CRef c => VRef c
  end.
Definition shows (m : mem) : state := map (fun k => Cont (keys k) (map (shown (strs m)) (cells k))) (conts m).
(** The value of a cell. *)
Definition obs (m : mem) (c i : nat) : option value := option_map (shown (strs m)) (get_cell m c i).

(** Memories of programs: no cell points nowhere, no two cells share a string object, an object
    has as many fields as keys, and no key twice. *)
Definition wf (m : mem) : Prop :=
  (forall c i x, get_cell m c i = Some x ->
     match x with CStr r => (r < List.length (strs m))%nat | CRef d => (d < List.length (conts m))%nat | _ => True end) /\
  (forall c i d j r, get_cell m c i = Some (CStr r) -> get_cell m d j = Some (CStr r) -> c = d /\ i = j) /\
  (forall c k ks, nth_error (conts m) c = Some k -> keys k = Some ks -> List.length ks = List.length (cells k) /\ NoDup ks) /\
  (exists ks, nth_error (conts m) 0 = Some ks /\ keys ks = None).

Inductive reached : mem -> Prop :=
| R_start n : reached (start n)
| R_step m s m' : reached m -> exec m s = Ok m' -> reached m'.
