(** * When is folding two constants the same as executing the operator? *)
From Coq Require Import ZArith List Bool Lia.
From Verif Require Import Base FloatModel ExprModel ValueModel FoldModel.
Import ListNotations.
Local Open Scope Z_scope.

(** The element a constant-loading instruction puts on the stack. *)
Definition kelem (h : heap) (k : const) (s : stk) : Prop :=
  match k with
  | KInt z => s = Stk z P_INT
  | KFloat f => s = Stk (enc f) P_FLOAT
  | KBool b => s = Stk (Z.b2z b) P_BOOL
  | KStr t => props s = P_OBJECT /\ h (val s) = Some (OStr t)
  end.

(** An operator's result is the constant [k]. *)
Definition kres (h : heap) (k : const) (r : opres) : Prop :=
  match r with
  | Push s => kelem h k s
  | NewStr t => k = KStr t
  | _ => False
  end.

(** The program does not get a value: a script error, or a call of an operator
    method on a string, which has none. *)
Definition no_value (r : opres) : Prop :=
  match r with Fail | CallMeta _ _ _ _ => True | _ => False end.

(** The text of an element at run time is the text of the number the compiler
    uses (ScriptEngine.cpp:390-410). *)
Definition same_text (itext : Z -> list Z) (ftext : f64 -> list Z) (text : stk -> list Z) : Prop :=
  (forall z, text (Stk z P_INT) = itext z) /\
  (forall w, text (Stk w P_FLOAT) = ftext (dec w)) /\
  (forall b : bool, text (Stk (Z.b2z b) P_BOOL) =
     if b then [116; 114; 117; 101] else [102; 97; 108; 115; 101]).

Definition nonulb (s : list Z) : bool := forallb (fun c => negb (c =? 0)) s.

(** Two strings with a first difference inside both of them. *)
Fixpoint differ (a b : list Z) : bool :=
  match a, b with
  | x :: a', y :: b' => if x =? y then differ a' b' else true
  | _, _ => false
  end.
Fixpoint same (a b : list Z) : bool :=
  match a, b with
  | [], [] => true
  | x :: a', y :: b' => (x =? y) && same a' b'
  | _, _ => false
  end.

Section Good.
Variable itext : Z -> list Z.
Variable ftext : f64 -> list Z.

Definition ktext (k : const) : list Z := side_text itext ftext k.

(** The constant pairs for which folding is right:
    - joining texts: no NUL inside, fewer than 4096 bytes together;
    - division: not an integer by a float, not by -0.0;
    - comparison: not an integer with a float; strings without NUL, and for an
      ordering neither a proper prefix of the other. *)
Definition good_cmp (eqne : bool) (k1 k2 : const) : bool :=
  match k1, k2 with
  | KInt _, KFloat _ => false
  | KStr a, KStr b => nonulb a && nonulb b && (eqne || same a b || differ a b)
  | _, _ => true
  end.
Definition good (o : ExprModel.bop) (k1 k2 : const) : bool :=
  match o with
  | O_ADD =>
      match k1, k2 with
      | KStr _, _ | _, KStr _ =>
          nonulb (ktext k1) && nonulb (ktext k2) &&
          (Z.of_nat (length (ktext k1 ++ ktext k2)) <? 4096)
      | _, _ => true
      end
  | O_DIV | O_MOD =>
      match k1, k2 with
      | KInt _, KFloat _ => false
      | _, KFloat f => negb (feqb (rd f) (of_int 0))
      | _, _ => true
      end
  | O_LT | O_GT | O_LTE | O_GTE => good_cmp false k1 k2
  | O_EQ | O_NE => good_cmp true k1 k2
  | _ => true
  end.
End Good.
