(** What operators, properties and setters of classes should do, said without the machine:
    what a function gives, what the operands of an operator are, what a class declares. *)
From Coq Require Import List ZArith Bool String Lia.
From Verif Require Import MetaModel.
Import ListNotations.
Open Scope Z_scope.

(** Called on [this] with [args] in the state [u], the function [f] leaves [u'] and its (first)
    result is [v]; a function that ends without return gives undefined. *)
Inductive Gives (f : fn) (u : usr) (this : option Z) (args : list stk) : usr -> stk -> Prop :=
| Gives_ret u' v l : f_body f u this args = (u', RRet (v :: l)) -> Gives f u this args u' v
| Gives_end u' : f_body f u this args = (u', REnd) -> Gives f u this args u' undef.

(** The function ends with a script error. *)
Definition Fails (f : fn) (u : usr) (this : option Z) (args : list stk) : Prop :=
  snd (f_body f u this args) = RErr.

Definition Class_of (ct : types) (u : usr) (o : Z) (c : cls) : Prop :=
  exists ob, hp u o = Some ob /\ ct (tid_of ob) = Some c.

(** The member [x] of the object [this] is the property [p] / a plain variable. *)
Definition Property (ct : types) (u : usr) (this : Z) (x : string) (p : prop) : Prop :=
  exists c, Class_of ct u this c /\ find_prop c x = Some p.
Definition Variable_ (ct : types) (u : usr) (this : Z) (x : string) : Prop :=
  exists c, Class_of ct u this c /\ find_prop c x = None.

(** Value of an operand and the state after it was read; [m]: the stack, [lb] the first local
    variable. *)
Inductive Operand (ct : types) (m : nat -> stk) (lb : nat) (this : Z) (u : usr) : reg -> usr -> stk -> Prop :=
| Op_local n : Operand ct m lb this u (RLoc n) u (m (lb + n)%nat)
| Op_var x : Variable_ ct u this x -> Operand ct m lb this u (RThis x) u (fld u this x)
| Op_prop x p g u' v : Property ct u this x p -> p_get p = Some g -> f_params g = O ->
    Gives g u (Some this) [] u' v -> Operand ct m lb this u (RThis x) u' v.

(** The two operands, the left one read first, and the place where the result goes. *)
Inductive Operands (ct : types) (m : nat -> stk) (top lb : nat) (this : Z) (u : usr) :
  form -> usr -> stk -> stk -> nat -> Prop :=
| Os_0 : (2 <= top)%nat -> Operands ct m top lb this u F0 u (m (top - 2)%nat) (m (top - 1)%nat) (top - 2)
| Os_K k : (1 <= top)%nat -> Operands ct m top lb this u (FK k) u (m (top - 1)%nat) k (top - 1)
| Os_R r u' v : (1 <= top)%nat -> Operand ct m lb this u r u' v ->
    Operands ct m top lb this u (FR r) u' (m (top - 1)%nat) v (top - 1)
| Os_KR k r u' v : Operand ct m lb this u r u' v -> Operands ct m top lb this u (FKR k r) u' k v top
| Os_RK r k u' v : Operand ct m lb this u r u' v -> Operands ct m top lb this u (FRK r k) u' v k top
| Os_RR r1 r2 u1 u2 v1 v2 : Operand ct m lb this u r1 u1 v1 -> Operand ct m lb this u1 r2 u2 v2 ->
    Operands ct m top lb this u (FRR r1 r2) u2 v1 v2 top.

(** The operand is no property. *)
Definition Plain (ct : types) (u : usr) (this : Z) (r : reg) : Prop :=
  match r with RLoc _ => True | RThis x => Variable_ ct u this x end.
(** A getter among the operands has no variables of its own. *)
Definition Simple (ct : types) (u : usr) (this : Z) (r : reg) : Prop :=
  match r with
  | RLoc _ => True
  | RThis x => forall p g, Property ct u this x p -> p_get p = Some g -> f_locals g = O
  end.
Definition Below (lb top : nat) (r : reg) : Prop :=
  match r with RLoc n => (lb + n < top - 1)%nat | RThis _ => True end.

(** At most one operand is a property, its getter is simple and does not write the member that
    is the other operand. *)
Definition Tame (ct : types) (m : nat -> stk) (top lb : nat) (this : Z) (u u' : usr) (f : form) : Prop :=
  match f with
  | F0 | FK _ => True
  | FR r | FKR _ r | FRK r _ => Simple ct u this r /\ Below lb top r
  | FRR r1 r2 =>
      Below lb top r1 /\ Below lb top r2 /\
      ((Plain ct u this r1 /\ Simple ct u this r2 /\
        match r1 with RThis x => fld u' this x = fld u this x | RLoc _ => True end)
       \/ (Simple ct u this r1 /\ forall u1 v1, Operand ct m lb this u r1 u1 v1 -> Plain ct u1 this r2))
  end.

(** The form of operands whose right one is a constant *)
Definition const_right (f : form) : bool := match f with FK _ | FRK _ _ => true | _ => false end.

(** The operator function of the class of [o] for [m] *)
Definition Operator (ct : types) (u : usr) (o : Z) (m : meta) (f : fn) : Prop :=
  exists c, Class_of ct u o c /\ find_method c (MOp m) = Some f /\ f_static f = true.

(** Which object's class is asked for a binary operator: the left one if it is an object. *)
Definition Asked (v1 v2 : stk) (o : Z) : Prop :=
  (has (props v1) P_OBJECT = true /\ o = val v1)
  \/ (has (props v1) P_OBJECT = false /\ has (props v2) P_OBJECT = true /\ o = val v2).

(** The instruction went on with [v] on top of a stack that is otherwise as before. *)
Definition Result (s : vm) (p : nat) (u : usr) (v : stk) (r : res) : Prop :=
  exists s', r = Go s' /\ sp s' = S p /\ mem s' p = v /\ us s' = u /\ err s' = false /\
    forall k, (k < p)%nat -> mem s' k = mem s k.

(** What a list of declarations says about a name: the functions declared for [m]. *)
Definition Declares (ds : list decl) (m : mm) (f : fn) : Prop := In (DMethod m f) ds.
Definition Declares_prop (ds : list decl) (x : string) : Prop := exists l, In (DProp x l) ds.
