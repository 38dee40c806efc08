(** Observable values of variables. *)
From Coq Require Import List ZArith Bool Lia.
From Verif Require Import Base StringModel ValueModel PassModel.
Import ListNotations.
Local Open Scope Z_scope.

(** What a script can see of a variable: a string is its text; other objects are references. *)
Inductive datum :=
| DU | DN | DI (z : Z) | DF (bits : Z) | DB (b : bool) | DFun (f : Z) | DTy (t : Z)
| DTxt (t : list Z) | DObj (o : nat).

Definition value (s : st) (e : elem) : option datum :=
  match e with
  | EU => Some DU | EN => Some DN | EI z => Some (DI z) | EF w => Some (DF w) | EB b => Some (DB b)
  | EFun f => Some (DFun f) | ETy t => Some (DTy t) | EObj o => Some (DObj o)
  | EStr r => match nth_error (strs s) r with Some o => Some (DTxt (txt o)) | None => None end
  | ERef _ | EPtr _ => None
  end.
Definition obs (s : st) (i : nat) : option datum :=
  match nth_error (vars s) i with Some e => value s e | None => None end.

(** A text in which no backslash has a character behind it. *)
Definition no_escape (t : list Z) : Prop := forall a e b, t <> a ++ 92 :: e :: b.
Definition plain (d : datum) : Prop := match d with DTxt t => no_escape t | _ => True end.

(** Reachable states: a variable owns its string object, which is no constant; a reference
    points to an older variable that is itself no reference. *)
Definition wf_elem (s : st) (k : nat) (e : elem) : Prop :=
  match e with
  | EStr r => exists o, nth_error (strs s) r = Some o /\ konst o = false
  | ERef j | EPtr j => (j < k)%nat /\ forall j', nth_error (vars s) j <> Some (ERef j')
  | _ => True
  end.
Definition wf (s : st) : Prop := forall k e, nth_error (vars s) k = Some e -> wf_elem s k e.

(** Literals of a program: numbers and the like, and constant strings. *)
Definition lit_ok (s : st) (e : elem) : Prop :=
  match e with
  | EStr r => exists o, nth_error (strs s) r = Some o /\ konst o = true
  | ERef _ | EPtr _ => False
  | _ => True
  end.
Definition leaf_ok (s : st) (l : leaf) : Prop := match l with LLit e => lit_ok s e | _ => True end.
Definition rhs_ok (s : st) (r : rhs) : Prop :=
  match r with RLeaf l => leaf_ok s l | ROp _ a b => leaf_ok s a /\ leaf_ok s b end.
Fixpoint cmd_ok (s : st) (c : cmd) : Prop :=
  match c with
  | CSet _ rs => Forall (rhs_ok s) rs
  | CCall args _ body =>
      Forall (fun a => rhs_ok s (snd a)) args /\
      (fix go (l : list cmd) : Prop := match l with [] => True | c' :: l' => cmd_ok s c' /\ go l' end) body
  end.

(** No variable of the first [n] shares its string object with another one of them. *)
Definition apart (s : st) (n : nat) : Prop :=
  forall i j r, (i < n)%nat -> (j < n)%nat ->
  nth_error (vars s) i = Some (EStr r) -> nth_error (vars s) j = Some (EStr r) -> i = j.
(** Variable [d] shares its string object with no other one. *)
Definition sole (s : st) (d : nat) : Prop :=
  forall i r, nth_error (vars s) d = Some (EStr r) -> nth_error (vars s) i = Some (EStr r) -> i = d.

(** Only locals are assigned or passed on. *)
Definition is_local (v : var) : Prop := match v with VLoc _ => True | VGlb _ => False end.
Fixpoint local_only (c : cmd) : Prop :=
  match c with
  | CSet vs _ => Forall is_local vs
  | CCall args _ body =>
      Forall (fun a => match snd a with RLeaf (LVar v) => is_local v | _ => True end) args /\
      (fix go (l : list cmd) : Prop := match l with [] => True | c' :: l' => local_only c' /\ go l' end) body
  end.

(** Variable [d] is an argument of a call: [v] itself, or what the reference [v] stands for. *)
Definition passed (s : st) (base : nat) (args : list (bool * rhs)) (byref : bool) (d : nat) : Prop :=
  exists v, In (byref, RLeaf (LVar v)) args /\ dest s base v = Ok d.

(** The value expression [l] stands for: that of a literal, of a variable, or of the variable
    a reference stands for. *)
Definition reads (s : st) (base : nat) (l : leaf) (x : datum) : Prop :=
  match l with
  | LLit e => value s e = Some x
  | LVar v => exists d, dest s base v = Ok d /\ obs s d = Some x
  end.
