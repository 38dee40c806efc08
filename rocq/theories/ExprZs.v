(** * The expression machine with the operators of the language.

    An instance of [VmModel.Sem] over undefined, null, bool, int, float, string,
    type and function values: the operators are those of [ValueModel], applied to
    the stack elements of the operands.  Arrays, objects and calls are outside this
    instance ([prim] always fails).

    Simplification: a string is a value here.  In the code a loaded string is a pointer
    to the object of its variable, which an assignment overwrites in place
    (src/vm/vm_store.cpp:248-276), so an assignment also changes what was loaded before:
    theorems that depend on it say that no strings are involved, and [PassModel] has the
    objects. *)
From Coq Require Import ZArith List Bool Lia.
From Verif Require Import Base FloatModel VmModel ExprModel ValueModel FoldModel FoldSpec FoldProofs.
Import ListNotations.
Local Open Scope Z_scope.

Inductive zval :=
| ZU | ZN | ZI (z : Z) | ZF (w : Z) | ZB (b : bool) | ZS (s : list Z) | ZT (t : Z) | ZFn (a : Z).

(** Variables, and whether undefined behaviour was met. *)
Record zworld := ZW { vars : var -> zval; ub : bool }.

Definition var_eqb (x y : var) : bool :=
  match x, y with
  | Local i, Local j | This i, This j | Global i, Global j => Nat.eqb i j
  | _, _ => false
  end.
Definition zset (w : zworld) (x : var) (v : zval) : zworld :=
  ZW (fun y => if var_eqb y x then v else vars w y) (ub w).
Definition zub (w : zworld) : zworld := ZW (vars w) true.

Section Instance.
Variable itext : Z -> list Z.
Variable ftext : f64 -> list Z.
(** Text of undefined, null, types and functions. *)
Variable otext : stk -> list Z.
Variable has_char : list Z -> Z -> bool.
Variable has_str : list Z -> list Z -> bool.

(** Stack element of a value; a string object lives at address [p]. *)
Definition zelem (p : Z) (v : zval) : stk :=
  match v with
  | ZU => Stk 0 P_UNDEFINED
  | ZN => Stk 0 P_NULL
  | ZI z => Stk z P_INT
  | ZF w => Stk w P_FLOAT
  | ZB b => Stk (Z.b2z b) P_BOOL
  | ZS _ => Stk p P_OBJECT
  | ZT t => Stk t P_TYPE
  | ZFn a => Stk a P_FUNCTION
  end.
Definition zobj (v : zval) : option obj := match v with ZS s => Some (OStr s) | _ => None end.
Definition zheap (a b : zval) : heap := fun p => if p =? 1 then zobj a else if p =? 2 then zobj b else None.

Definition ztext (s : stk) : list Z :=
  if props s =? P_INT then itext (val s)
  else if props s =? P_FLOAT then ftext (dec (val s))
  else if props s =? P_BOOL then (if val s =? 0 then false_text else true_text)
  else otext s.

Definition zread (h : heap) (s : stk) : zval :=
  if props s =? P_UNDEFINED then ZU
  else if props s =? P_NULL then ZN
  else if props s =? P_INT then ZI (val s)
  else if props s =? P_FLOAT then ZF (val s)
  else if props s =? P_BOOL then ZB (negb (val s =? 0))
  else if props s =? P_TYPE then ZT (val s)
  else if props s =? P_FUNCTION then ZFn (val s)
  else match h (val s) with Some (OStr t) => ZS t | _ => ZU end.

Definition zresult (h : heap) (r : opres) (w : zworld) : ev zworld zval :=
  match r with
  | Push s => EOk (zread h s) w
  | NewStr t => EOk (ZS t) w
  | UBd => EErr (zub w)
  | _ => EErr w
  end.

Definition zbinop (o : ExprModel.bop) (a b : zval) (w : zworld) : ev zworld zval :=
  let h := zheap a b in
  zresult h (run_op has_char has_str h ztext o (zelem 1 a) (zelem 2 b)) w.

Definition zunop (u : uop) (a : zval) (w : zworld) : ev zworld zval :=
  let h := zheap a ZU in
  match u with
  | U_NEG => zresult h (op_neg h (zelem 1 a)) w
  | U_NOT => zresult h (op_not h (zelem 1 a)) w
  | U_BWC => zresult h (op_bwc h (zelem 1 a)) w
  | U_TYPEOF => match type_of h (zelem 1 a) with Some s => EOk (zread h s) w | None => EErr (zub w) end
  end.

(** instanceof against a built-in type: the type identifiers are compared. *)
Definition zinst (a : zval) (t : Z) (w : zworld) : ev zworld zval :=
  let h := zheap a ZU in
  match type_of h (zelem 1 a) with
  | Some s => EOk (ZB (val s =? t)) w
  | None => EErr (zub w)
  end.

Definition zasres (h : heap) (x : var) (r : asres) (w : zworld) : ev zworld zval :=
  match r with
  | ValueModel.Asg s p => EOk (zread h p) (zset w x (zread h s))
  | AppStr o t =>
      match h o with
      | Some (OStr s) => EOk (ZS (s ++ t)) (zset w x (ZS (s ++ t)))
      | _ => EErr (zub w)
      end
  | AUB => EErr (zub w)
  | _ => EErr w
  end.

(** What vm_store leaves in a variable: a string goes through StringScriptObject::set. *)
Definition zkept (v : zval) : zval := match v with ZS t => ZS (set_text t) | _ => v end.

Definition zassign (a : asop) (x : var) (v : zval) (w : zworld) : ev zworld zval :=
  let o := vars w x in
  let h := zheap o v in
  let X := zelem 1 o in let E := zelem 2 v in
  match a with
  | A_SET => EOk v (zset w x (zkept v))
  | A_ADD => zasres h x (as_add h ztext X E) w
  | A_SUB => zasres h x (as_sub h ztext X E) w
  | A_MUL => zasres h x (as_mul h ztext X E) w
  | A_DIV => zasres h x (as_div h ztext X E) w
  | A_MOD => zasres h x (as_mod h ztext X E) w
  | A_XOR => zasres h x (as_bits h ztext BXor X E) w
  | A_AND => zasres h x (as_bits h ztext BAnd X E) w
  | A_OR => zasres h x (as_bits h ztext BOr X E) w
  | A_SHL => zasres h x (as_bits h ztext BShl X E) w
  | A_SHR => zasres h x (as_bits h ztext BShr X E) w
  end.

Definition zincdec (post inc : bool) (x : var) (w : zworld) : ev zworld zval :=
  let o := vars w x in
  zasres (zheap o ZU) x (ValueModel.incdec post (if inc then 1 else -1) (zelem 1 o)) w.

Definition zk (k : const) : zval :=
  match k with
  | KInt z => ZI z | KFloat f => ZF (enc f) | KBool b => ZB b | KStr s => ZS s
  end.

Definition ZSem : Sem := {|
  V := zval; W := zworld; L := var;
  kval := zk;
  undefv := ZU; nullv := ZN; funv := ZFn; typev := ZT;
  vbool := fun v => match v with ZB b => Some b | _ => None end;
  vget := vars;
  lvar := fun x => x;
  binop := zbinop;
  unop := zunop;
  instof := zinst;
  VmModel.incdec := zincdec;
  assign := zassign;
  VmModel.prim := fun _ _ w => EErr w;
  lprim := fun _ _ w => EErr w;
  caseeq := fun a b w =>
    match zbinop O_EQ a b w with
    | EOk (ZB r) w' => EOk r w'
    | EOk _ w' => EErr w'
    | EErr w' => EErr w'
    end;
  itinit := fun _ _ w => EErr w;
  itload := fun _ _ w => EErr w;
  itcall := fun _ _ w => EErr w;
  popsc := fun _ w => w     (* expressions open no scope *)
|}.

Lemma ztext_same : same_text itext ftext ztext.
Proof. repeat split. intros [|]; reflexivity. Qed.

Lemma zk_elem k1 k2 : kelem (zheap (zk k1) (zk k2)) k1 (zelem 1 (zk k1)) /\
                      kelem (zheap (zk k1) (zk k2)) k2 (zelem 2 (zk k2)).
Proof. destruct k1, k2; cbn; auto. Qed.

Lemma kres_zresult h k r w : kres h k r -> zresult h r w = EOk (zk k) w.
Proof.
  destruct r; cbn; try tauto.
  - destruct k; cbn; intro H; try (subst s; reflexivity).
    + subst s. destruct b; reflexivity.
    + destruct s as [v p]; cbn in *. destruct H as [-> H]. cbn. rewrite H. reflexivity.
  - intros ->. reflexivity.
Qed.

Notation foldk := (foldk itext ftext has_char has_str).
Notation good := (good itext ftext).

(** Folding two constants is the operator of the machine. *)
Lemma z_good o k1 k2 k : good o k1 k2 = true -> foldk o k1 k2 = FoldK k ->
  forall w, binop ZSem o (kval ZSem k1) (kval ZSem k2) w = EOk (kval ZSem k) w.
Proof.
  intros Hg Hf w. destruct (zk_elem k1 k2) as [H1 H2].
  apply kres_zresult. eapply fold_agrees; eauto using ztext_same.
Qed.

Lemma z_bool b : vbool ZSem (kval ZSem (KBool b)) = Some b.
Proof. reflexivity. Qed.
End Instance.

(** Executing code: as many steps as [fuel] allows. *)
Section Exec.
Variable S : Sem.
Fixpoint exec (fuel : nat) (C : code) (s : st S) : sres S :=
  match fuel with
  | O => Next S s
  | Datatypes.S n =>
      if Nat.eqb (pc S s) (length C) then Next S s else
      match step S C s with
      | Next _ s' => exec n C s'
      | r => r
      end
  end.
End Exec.
