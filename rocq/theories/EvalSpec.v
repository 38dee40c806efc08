(** * Specification of System::eval, independent of byte code. *)
From Coq Require Import ZArith List Bool Lia.
From Verif Require Import Base FloatModel ExprModel VmModel ExprSpec StmtModel StmtSpec EvalModel.
Import ListNotations.
Local Open Scope Z_scope.

(** A text that ends with one more statement. *)
Fixpoint snoc (ss : stmts) (s : stmt) : stmts :=
  match ss with SNil => SCons s SNil | SCons x ss' => SCons x (snoc ss' s) end.

(** Expressions that do not end with an assignment, an increment or a call. *)
Section Valued.
Variable is_call : Z -> bool.
Fixpoint valued_operand (a : operand) : bool :=
  match a with
  | AIncDec _ _ _ => false
  | APrim p _ => negb (is_call p)
  | AParen e => valued e
  | _ => true
  end
with valued (e : expr) : bool :=
  match e with
  | Expr TgNil hd ONil TNone => valued_operand hd
  | Expr TgNil _ (OCons _ _ _) TNone => true
  | Expr TgNil _ _ (TSome _ e2) => valued e2
  | _ => false
  end.
End Valued.

(** Elements [b], ..., [b+r-1] of a stack. *)
Definition elements {A} (m : mem A) (b : Z) (r : nat) : list A := map (fun i => m (b + Z.of_nat i)) (seq 0 r).

(** Values, with undefined for the missing ones, as a call of a script function delivers them for
    [r] targets: the last target lowest (the rule proved for script functions, C45). *)
Definition delivered {A} (u : A) (r : nat) (vs : list A) : list A :=
  firstn r (rev (vs ++ repeat u (r - length vs))).

(** ** The text that is run: two characters, a backslash and another one, stand for one. *)
Definition backslash : Z := 92.
