(** What a script author expects of classes: a table of declarations, each with the class it
    extends and what it declares itself. *)
From Coq Require Import List ZArith Bool Lia Relations.
From Verif Require Import Base StringModel TypeModel.
Import ListNotations.

Record cls : Type := mkcls {
  c_name : name;
  c_parent : option nat;
  c_vars : list name;             (** declared in this class *)
  c_methods : list (name * nat)   (** declared in this class; number of the function *)
}.

Definition table := list cls.

(** The method an object of class [t] answers to [n] with: its own declaration, otherwise
    that of the class it extends. *)
Inductive method_of (tb : table) : nat -> name -> nat -> Prop :=
| own_method t c n f :
    nth_error tb t = Some c -> In (n, f) (c_methods c) -> method_of tb t n f
| inherited_method t c p n f :
    nth_error tb t = Some c -> ~ In n (map fst (c_methods c)) -> c_parent c = Some p ->
    method_of tb p n f -> method_of tb t n f.

(** The class has a member variable [v], its own or inherited. *)
Inductive has_var (tb : table) : nat -> name -> Prop :=
| own_var t c v : nth_error tb t = Some c -> In v (c_vars c) -> has_var tb t v
| inherited_var t c p v :
    nth_error tb t = Some c -> c_parent c = Some p -> has_var tb p v -> has_var tb t v.

(** [t] extends [p] directly. *)
Definition parent (tb : table) (t p : nat) : Prop :=
  exists c, nth_error tb t = Some c /\ c_parent c = Some p.

(** [t] is [u] or extends it, directly or not. *)
Definition subclass (tb : table) : nat -> nat -> Prop := clos_refl_trans nat (parent tb).

Definition named (tb : table) (n : name) (t : nat) : Prop :=
  exists c, nth_error tb t = Some c /\ c_name c = n.
Definition class_name (tb : table) (n : name) : Prop := exists t, named tb n t.

(** A declaration the language is meant to accept, given the names [gs] of the main scope, and the table after it. The number of the
    next function is [k]. *)
Inductive declares (gs : list name) (tb : table) (k : nat) : top -> list name -> table -> nat -> Prop :=
| decl_class n :
    (length tb < MAX_CLASSES)%nat -> n <> [] -> ~ class_name tb n -> ~ In n gs ->
    declares gs tb k (DClass n []) gs (tb ++ [mkcls n None [] []]) (S k)
| decl_extends n b p :
    (length tb < MAX_CLASSES)%nat -> n <> [] -> b <> [] -> ~ class_name tb n -> ~ In n gs ->
    named tb b p ->
    (forall v, has_var tb p v -> v <> n /\ ~ class_name tb v) ->
    declares gs tb k (DClass n b) gs (tb ++ [mkcls n (Some p) [] []]) (S k)
| decl_var t c v :
    nth_error tb t = Some c ->
    (forall u, ~ parent tb u t) ->
    ~ class_name tb v -> ~ has_var tb t v -> (forall f, ~ method_of tb t v f) ->
    declares gs tb k (DVar t v) gs
      (upd tb t (mkcls (c_name c) (c_parent c) (c_vars c ++ [v]) (c_methods c))) k
| decl_fun t c n :
    nth_error tb t = Some c ->
    (forall u, ~ parent tb u t) ->
    (~ class_name tb n \/ n = c_name c) -> ~ has_var tb t n -> ~ In n (map fst (c_methods c)) ->
    declares gs tb k (DFun t n) gs
      (upd tb t (mkcls (c_name c) (c_parent c) (c_vars c) (c_methods c ++ [(n, k)]))) (S k)
| decl_global n :
    ~ class_name tb n -> ~ In n gs -> declares gs tb k (DGlobal n) (n :: gs) tb k.

Inductive program (gs : list name) (tb : table) (k : nat) : list top -> list name -> table -> nat -> Prop :=
| prog_nil : program gs tb k [] gs tb k
| prog_cons o os gs1 tb1 k1 gs2 tb2 k2 :
    declares gs tb k o gs1 tb1 k1 -> program gs1 tb1 k1 os gs2 tb2 k2 ->
    program gs tb k (o :: os) gs2 tb2 k2.

(** The table of the built-in types. *)
Definition table0 (builtins : list name) : table :=
  map (fun n => mkcls n None [] []) builtins.
