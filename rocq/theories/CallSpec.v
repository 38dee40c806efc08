(** What a call should do, stated without the model's functions. *)
From Coq Require Import List ZArith Bool Lia.
From Verif Require Import Base StringModel CallModel.
Import ListNotations.
Open Scope Z_scope.

(** The value an argument stands for: a variable stands for its value, a reference parameter for
    the value of the variable it refers to. A string constant is passed as a string. *)
Inductive plain : elem -> Prop :=
| pl_undef : plain EUndef
| pl_num : forall z, plain (ENum z)
| pl_obj : forall o, plain (EObj o)
| pl_str : forall s, plain (EStr false s)
| pl_arr : forall es, plain (EArr es).
Inductive reads (mem : nat -> elem) : elem -> elem -> Prop :=
| rd_plain : forall e, plain e -> reads mem e e
| rd_const : forall s, reads mem (EStr true s) (EStr false s)
| rd_slot : forall o, reads mem (ESlot o) (EObj o)
| rd_var : forall l v, reads mem (mem l) v -> (forall l', mem l <> EPtr l') -> reads mem (EPtr l) v
| rd_ref : forall l v, reads mem (mem l) v -> (forall l', mem l <> EPtr l' /\ mem l <> ERef l' /\ mem l <> ESlot l') ->
    reads mem (ERef l) v.
(** The variable an argument names. *)
Inductive names : elem -> nat -> Prop :=
| nm_var : forall l, names (EPtr l) l
| nm_ref : forall l, names (ERef l) l.

(** Rest parameters come last (compiler_keyword_function.cpp:392). *)
Definition rest_last (ps : list param) : Prop :=
  forall i p, nth_error ps i = Some p -> p_rest p = true -> S i = length ps.

Definition default_is (p : param) (v : elem) : Prop := p_def p = DVal v \/ p_def p = DCall (Some v).

(** Nesting depth of activations. *)
Fixpoint depth (a : act) : Z :=
  match a with
  | Act _ _ body _ =>
      1 + (fix go (b : list (Z * act)) : Z := match b with [] => 0 | (_, x) :: b' => Z.max (depth x) (go b') end) body
  end.
(** Every activation's local variables lie inside the value stack; its operands too. *)
Fixpoint locals_fit (size base : Z) (a : act) : Prop :=
  match a with
  | Act nl need body _ =>
      0 <= nl /\ 0 <= need /\ base + nl < size /\
      (fix go (b : list (Z * act)) : Prop :=
         match b with [] => True | (off, x) :: b' => 0 <= off /\ locals_fit size (base + nl + off) x /\ go b' end) body
  end.
Fixpoint all_fit (size base : Z) (a : act) : Prop :=
  match a with
  | Act nl need body _ =>
      0 <= nl /\ 0 <= need /\ base + nl + need < size /\
      (fix go (b : list (Z * act)) : Prop :=
         match b with [] => True | (off, x) :: b' => 0 <= off /\ all_fit size (base + nl + off) x /\ go b' end) body
  end.
(** No activation stops with an error of its own. *)
Fixpoint no_error (a : act) : Prop :=
  match a with
  | Act _ _ body err =>
      err = false /\
      (fix go (b : list (Z * act)) : Prop := match b with [] => True | (_, x) :: b' => no_error x /\ go b' end) body
  end.
