(** * Specification of expressions, independent of the compiler:
      operator trees, the documented priorities, and evaluation. *)
From Coq Require Import ZArith List Bool Lia.
From Verif Require Import Base FloatModel ExprModel VmModel.
Import ListNotations.
Local Open Scope Z_scope.

(** ** Operator trees. *)
Inductive tree (A : Type) := Leaf (a : A) | Node (o : bop) (l r : tree A).
Arguments Leaf {A} a.
Arguments Node {A} o l r.

(** The tokens of a tree, left to right: first operand, then pairs of an
    operator and an operand. *)
Fixpoint first_leaf {A} (t : tree A) : A :=
  match t with Leaf a => a | Node _ l _ => first_leaf l end.
Fixpoint rest_toks {A} (t : tree A) : list (bop * A) :=
  match t with
  | Leaf _ => []
  | Node o l r => rest_toks l ++ (o, first_leaf r) :: rest_toks r
  end.

(** How tightly an operator binds: the priority table of the language, loosest
    first: [||]; [&&]; comparisons; [+ -]; [* / %]; [| ^]; [&]; shifts;
    [in instanceof]. *)
Definition binds (o : bop) : nat :=
  match o with
  | O_LOR => 0 | O_LAND => 1
  | O_EQ | O_NE | O_GTE | O_LTE | O_GT | O_LT => 2
  | O_ADD | O_SUB => 3
  | O_MUL | O_DIV | O_MOD => 4
  | O_OR | O_XOR => 5
  | O_AND => 6
  | O_SHL | O_SHR => 7
  | O_INST | O_IN => 8
  end.

(** A tree groups its tokens by priority, left-associatively: the operators of
    the left part of a node bind at least as tightly as the node's, those of
    the right part strictly more. *)
Fixpoint all_ops {A} (P : bop -> Prop) (t : tree A) : Prop :=
  match t with Leaf _ => True | Node o l r => P o /\ all_ops P l /\ all_ops P r end.
Fixpoint by_priority {A} (t : tree A) : Prop :=
  match t with
  | Leaf _ => True
  | Node o l r =>
      all_ops (fun x => (binds o <= binds x)%nat) l /\
      all_ops (fun x => (binds o < binds x)%nat) r /\
      by_priority l /\ by_priority r
  end.

(** The tree of a token list: operators are added from left to right, each one
    descending along the right edge while it binds more tightly. *)
Fixpoint add_op {A} (t : tree A) (o : bop) (a : A) : tree A :=
  match t with
  | Leaf _ => Node o t (Leaf a)
  | Node o' l r =>
      if (binds o' <? binds o)%nat then Node o' l (add_op r o a) else Node o t (Leaf a)
  end.
Definition tree_of {A} (hd : A) (tl : list (bop * A)) : tree A :=
  fold_left (fun t p => add_op t (fst p) (snd p)) tl (Leaf hd).

(** ** Evaluation, for any behaviour of values. *)
Section Eval.
Variable S : Sem.

(** What an operand or expression means: from a world to a value (or error)
    and a new world. *)
Definition den := W S -> ev (W S) (V S).

Definition truth (v : V S) (w : W S) : ev (W S) bool :=
  match vbool S v with Some b => EOk b w | None => EErr w end.

(** Operands are evaluated left to right; [&&] and [||] evaluate their right
    operand only if needed; [instanceof] has a type on its right. *)
Fixpoint eval_tree (t : tree (den * option Z)) : den := fun w =>
  match t with
  | Leaf d => fst d w
  | Node O_LAND l r =>
      ebind (eval_tree l w) (fun v w1 => ebind (truth v w1) (fun b w2 =>
        if b then eval_tree r w2 else EOk (kval S (KBool false)) w2))
  | Node O_LOR l r =>
      ebind (eval_tree l w) (fun v w1 => ebind (truth v w1) (fun b w2 =>
        if b then EOk (kval S (KBool true)) w2 else eval_tree r w2))
  | Node O_INST l r =>
      ebind (eval_tree l w) (fun v w1 =>
        match r with
        | Leaf (_, Some t) => instof S v t w1
        | _ => EErr w1
        end)
  | Node o l r =>
      ebind (eval_tree l w) (fun a w1 =>
        ebind (eval_tree r w1) (fun b w2 => binop S o a b w2))
  end.

(** Is the expression a bare variable (possibly in parentheses)?  Such a call
    argument is handed over as the variable itself. *)
Fixpoint bare_operand (a : operand) : option var :=
  match a with
  | AVar x => Some x
  | AParen e => bare e
  | _ => None
  end
with bare (e : expr) : option var :=
  match e with
  | Expr TgNil hd ONil TNone => bare_operand hd
  | _ => None
  end.

(** Evaluation of a list of argument meanings. *)
Fixpoint eval_list {A} (ds : list (W S -> ev (W S) A)) : W S -> ev (W S) (list A) := fun w =>
  match ds with
  | [] => EOk [] w
  | d :: ds' => ebind (d w) (fun a w1 => ebind (eval_list ds' w1) (fun r w2 => EOk (a :: r) w2))
  end.

Definition type_leaf (a : operand) : option Z := match a with AType t => Some t | _ => None end.

(** Assignments of a chain: performed one after the other from the leftmost
    target to the rightmost, each target being located after the value is
    known, each one passing its result on.  (Property C37 compares this order
    with the usual right-to-left one.) *)
Fixpoint eval_operand (a : operand) : den := fun w =>
  match a with
  | AConst k => EOk (kval S k) w
  | AUndef => EOk (undefv S) w
  | ANull => EOk (nullv S) w
  | AFun f => EOk (funv S f) w
  | AType t => EOk (typev S t) w
  | AVar x => EOk (vget S w x) w
  | AIncDec post inc t => ebind (eval_target t w) (fun l w1 => incdec S post inc l w1)
  | APrim p args => ebind (eval_list (args_den args) w) (fun xs w1 => prim S p xs w1)
  | AParen e => eval_expr e w
  | AUn u a => ebind (eval_operand a w) (fun v w1 => unop S u v w1)
  end
with eval_expr (e : expr) : den := fun w =>
  match e with
  | Expr ts hd tl tn =>
      ebind (eval_tree (tree_of (eval_operand hd, type_leaf hd) (ops_den tl)) w) (fun v w1 =>
      ebind (eval_tern tn v w1) (fun v2 w2 =>
      eval_targets ts v2 w2))
  end
with args_den (es : exprs) : list (W S -> ev (W S) (slot S)) :=
  match es with
  | ENil => []
  | ECons e es' =>
      (match bare e with
       | Some (Local n) => fun w => EOk (inr (lvar S (Local n))) w
       | Some (Global n) => fun w => EOk (inr (lvar S (Global n))) w
       | _ => fun w => ebind (eval_expr e w) (fun v w1 => EOk (inl v) w1)
       end) :: args_den es'
  end
with ops_den (os : ops) : list (bop * (den * option Z)) :=
  match os with
  | ONil => []
  | OCons o a os' => (o, (eval_operand a, type_leaf a)) :: ops_den os'
  end
with eval_tern (tn : tern) : V S -> den := fun v w =>
  match tn with
  | TNone => EOk v w
  | TSome e1 e2 => ebind (truth v w) (fun b w1 => if b then eval_expr e1 w1 else eval_expr e2 w1)
  end
with eval_targets (ts : targets) : V S -> den := fun v w =>
  match ts with
  | TgNil => EOk v w
  | TgCons t a ts' =>
      ebind (eval_target t w) (fun l w1 =>
      ebind (assign S a l v w1) (fun v2 w2 =>
      eval_targets ts' v2 w2))
  end
with eval_target (t : target) : W S -> ev (W S) (L S) := fun w =>
  match t with
  | TVar x => EOk (lvar S x) w
  | TPrim p args => ebind (eval_list (args_den args) w) (fun xs w1 => lprim S p xs w1)
  end.

End Eval.

(** ** Expressions the optimiser handles correctly.

    An operand whose last instructions are jumped over: a parenthesised
    expression (without prefix operator or assignment) ending in [&&], [||] or
    [?:]. *)
Definition is_logic (o : bop) : bool := match o with O_LOR | O_LAND => true | _ => false end.
Fixpoint any_logic (os : ops) : bool :=
  match os with ONil => false | OCons o _ os' => is_logic o || any_logic os' end.

Fixpoint jumpy (a : operand) : bool :=
  match a with
  | AParen (Expr TgNil _ _ (TSome _ _)) => true
  | AParen (Expr TgNil hd ONil TNone) => jumpy hd
  | AParen (Expr TgNil _ os TNone) => any_logic os
  | _ => false
  end.
(** ... ending in [?:]. *)
Fixpoint ternish (a : operand) : bool :=
  match a with
  | AParen (Expr TgNil _ _ (TSome _ _)) => true
  | AParen (Expr TgNil hd ONil TNone) => ternish hd
  | _ => false
  end.

Section Guard.
Variable foldk : bop -> const -> const -> fold.
(** Constant pairs for which folding is known to agree with execution. *)
Variable good : bop -> const -> const -> bool.

(** The constant an expression of constants is folded to. *)
Fixpoint const_tree (t : tree (option const)) : option const :=
  match t with
  | Leaf k => k
  | Node o l r =>
      if is_logic o then None else
      match o with
      | O_INST => None
      | _ =>
          match const_tree l, const_tree r with
          | Some k1, Some k2 => match foldk o k1 k2 with FoldK k => Some k | _ => None end
          | _, _ => None
          end
      end
  end.
Fixpoint const_operand (a : operand) : option const :=
  match a with
  | AConst k => Some k
  | AParen e => const_expr e
  | _ => None
  end
with const_expr (e : expr) : option const :=
  match e with
  | Expr TgNil hd tl TNone => const_tree (tree_of (const_operand hd) (const_ops tl))
  | _ => None
  end
with const_ops (os : ops) : list (bop * option const) :=
  match os with
  | ONil => []
  | OCons o a os' => (o, const_operand a) :: const_ops os'
  end.

Record info := Info {
  i_jump : bool; i_tern : bool; i_type : option Z; i_const : option const; i_ok : bool }.

Fixpoint tmap {A B} (f : A -> B) (t : tree A) : tree B :=
  match t with Leaf a => Leaf (f a) | Node o l r => Node o (tmap f l) (tmap f r) end.

Definition leaf_jump (t : tree info) : bool := match t with Leaf i => i_jump i | _ => false end.
Definition leaf_tern (t : tree info) : bool := match t with Leaf i => i_tern i | _ => false end.
Definition leaf_type (t : tree info) : bool :=
  match t with Leaf i => match i_type i with Some _ => true | None => false end | _ => false end.

(** - the left operand of a non-logical operator does not end in [&&], [||],
      [?:] in parentheses;
    - its right operand does not end in [?:] in parentheses;
    - the right operand of [instanceof] is a type;
    - two constants are only combined when folding them is right. *)
Fixpoint ok_tree (t : tree info) : bool :=
  match t with
  | Leaf i => i_ok i
  | Node o l r =>
      ok_tree l && ok_tree r &&
      (if is_logic o then true else
       match o with
       | O_INST => leaf_type r
       | _ =>
           negb (leaf_jump l) && negb (leaf_tern r) &&
           (match const_tree (tmap i_const l), const_tree (tmap i_const r) with
            | Some k1, Some k2 => good o k1 k2
            | _, _ => true
            end)
       end)
  end.

Fixpoint ok_operand (a : operand) : bool :=
  match a with
  | AConst _ | AUndef | ANull | AFun _ | AType _ | AVar _ => true
  | AIncDec _ _ t => ok_target t
  | APrim _ args => ok_args args
  | AParen e => ok_expr e
  | AUn _ a => ok_operand a
  end
with ok_expr (e : expr) : bool :=
  match e with
  | Expr ts hd tl tn =>
      ok_targets ts && ok_tern tn &&
      ok_tree (tree_of (Info (jumpy hd) (ternish hd) (type_leaf hd) (const_operand hd) (ok_operand hd))
                       (ok_ops tl))
  end
with ok_args (es : exprs) : bool :=
  match es with ENil => true | ECons e es' => ok_expr e && ok_args es' end
with ok_ops (os : ops) : list (bop * info) :=
  match os with
  | ONil => []
  | OCons o a os' =>
      (o, Info (jumpy a) (ternish a) (type_leaf a) (const_operand a) (ok_operand a)) :: ok_ops os'
  end
with ok_tern (tn : tern) : bool :=
  match tn with TNone => true | TSome e1 e2 => ok_expr e1 && ok_expr e2 end
with ok_targets (ts : targets) : bool :=
  match ts with TgNil => true | TgCons t _ ts' => ok_target t && ok_targets ts' end
with ok_target (t : target) : bool :=
  match t with TVar _ => true | TPrim _ args => ok_args args end.

End Guard.

(** The compiled code [c] computes [d]: executed anywhere inside a program,
    with anything below on the stack, it pushes the value of [d] and makes the
    world of [d], or stops with an error exactly when [d] does. *)
Definition code_at (C : code) (p : nat) (c : code) : Prop :=
  exists C1 C2, C = C1 ++ c ++ C2 /\ length C1 = p.

Definition computes (S : Sem) (c : code) (d : W S -> ev (W S) (V S)) : Prop :=
  forall C p s w sc, code_at C p c ->
  match d w with
  | EOk v w' => steps S C (St S p s w sc) (St S (p + length c) (inl v :: s) w' sc)
  | EErr w' => fails S C (St S p s w sc) w'
  end.
