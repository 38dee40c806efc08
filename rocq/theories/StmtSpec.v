(** * Specification of statements, independent of byte code: what a statement
      does to the world, and how it ends. *)
From Coq Require Import ZArith List Bool Lia.
From Verif Require Import Base FloatModel ExprModel VmModel ExprSpec StmtModel.
Import ListNotations.
Local Open Scope Z_scope.

Section Exec.
Variable S : Sem.

(** Ways a statement ends: normally, by break, by continue, by return with
    values, with an error. *)
Inductive out :=
| ONorm (w : W S) | OBrk (w : W S) | OCont (w : W S)
| ORet (vs : list (slot S)) (w : W S) | OErr (w : W S).

(** A statement is a function of the number of loop iterations allowed and the
    world; [None]: more iterations are needed. *)
Definition sden := nat -> W S -> option out.

Definition of_unit {A} (r : ev (W S) A) : out :=
  match r with EOk _ w => ONorm w | EErr w => OErr w end.

Definition then_ (r : option out) (k : W S -> option out) : option out :=
  match r with Some (ONorm w) => k w | _ => r end.

(** Leaving a block: whatever way it is left (except by an error), its
    variables end. *)
Definition leaving (z : Z) (r : option out) : option out :=
  match r with
  | Some (ONorm w) => Some (ONorm (popsc S z w))
  | Some (OBrk w) => Some (OBrk (popsc S z w))
  | Some (OCont w) => Some (OCont (popsc S z w))
  | Some (ORet vs w) => Some (ORet vs (popsc S z w))
  | _ => r
  end.

(** The expressions of a sequence, left to right. *)
Fixpoint dens (es : exprs) : list (den S) :=
  match es with ENil => [] | ECons e es' => eval_expr S e :: dens es' end.
Definition exec_seq (es : exprs) (w : W S) : ev (W S) unit :=
  ebind (eval_list S (dens es) w) (fun _ w' => EOk tt w').

(** Multiple assignment: all right sides are evaluated (the last one first),
    missing ones are undefined; then all targets are located; then the stores
    are made, the last one first. *)
Fixpoint assign_all (ps : list (L S * V S)) (w : W S) : ev (W S) unit :=
  match ps with
  | [] => EOk tt w
  | (l, v) :: ps' => ebind (assign S A_SET l v w) (fun _ w' => assign_all ps' w')
  end.
Definition exec_multi (ls : list target) (rs : exprs) (w : W S) : ev (W S) unit :=
  ebind (eval_list S (rev (dens rs)) w) (fun vs w1 =>
  ebind (eval_list S (map (eval_target S) ls) w1) (fun locs w2 =>
  assign_all (rev (combine locs (rev vs ++ repeat (undefv S) (length ls)))) w2)).

(** Variable declarations: a plain declaration does nothing (a variable is
    undefined when its block is entered). *)
Definition exec_var (x : var) (oe : option expr) (w : W S) : ev (W S) unit :=
  match oe with
  | None => EOk tt w
  | Some e => ebind (eval_expr S (var_expr x e) w) (fun _ w' => EOk tt w')
  end.
Fixpoint exec_vars (vs : list (var * option expr)) (w : W S) : ev (W S) unit :=
  match vs with
  | [] => EOk tt w
  | (x, oe) :: vs' => ebind (exec_var x oe w) (fun _ w' => exec_vars vs' w')
  end.

(** Returned values; a bare global variable is handed over as the variable. *)
Fixpoint rets_den (es : exprs) : list (W S -> ev (W S) (slot S)) :=
  match es with
  | ENil => []
  | ECons e es' =>
      (match bare e with
       | Some (Global n) => fun w => EOk (inr (lvar S (Global n))) w
       | _ => fun w => ebind (eval_expr S e w) (fun v w1 => EOk (inl v) w1)
       end) :: rets_den es'
  end.

Definition test (e : expr) (w : W S) : ev (W S) bool :=
  ebind (eval_expr S e w) (fun v w1 => truth S v w1).

(** Loops: condition, body, post action, again. *)
Fixpoint loop (cond : W S -> ev (W S) bool) (body : sden) (post : W S -> ev (W S) unit)
  (f : nat) (w : W S) : option out :=
  match f with
  | O => None
  | Datatypes.S f' =>
      match cond w with
      | EErr w1 => Some (OErr w1)
      | EOk false w1 => Some (ONorm w1)
      | EOk true w1 =>
          match body f' w1 with
          | Some (ONorm w2) | Some (OCont w2) =>
              match post w2 with
              | EErr w3 => Some (OErr w3)
              | EOk _ w3 => loop cond body post f' w3
              end
          | Some (OBrk w2) => Some (ONorm w2)
          | r => r
          end
      end
  end.
Fixpoint do_loop (body : sden) (cond : W S -> ev (W S) bool) (f : nat) (w : W S) : option out :=
  match f with
  | O => None
  | Datatypes.S f' =>
      match body f' w with
      | Some (ONorm w1) | Some (OCont w1) =>
          match cond w1 with
          | EErr w2 => Some (OErr w2)
          | EOk false w2 => Some (ONorm w2)
          | EOk true w2 => do_loop body cond f' w2
          end
      | Some (OBrk w1) => Some (ONorm w1)
      | r => r
      end
  end.

(** The same loops by rules, without a bound on the iterations. *)
Definition terminates (x : sden) (w : W S) (r : out) : Prop := exists f, x f w = Some r.

Inductive while_runs (cond : W S -> ev (W S) bool) (body : sden) (post : W S -> ev (W S) unit) : W S -> out -> Prop :=
| wr_cond_error : forall w w1, cond w = EErr w1 -> while_runs cond body post w (OErr w1)
| wr_stop : forall w w1, cond w = EOk false w1 -> while_runs cond body post w (ONorm w1)
| wr_next : forall w w1 r1 w2 w3 r, cond w = EOk true w1 -> terminates body w1 r1 ->
    r1 = ONorm w2 \/ r1 = OCont w2 -> post w2 = EOk tt w3 -> while_runs cond body post w3 r ->
    while_runs cond body post w r
| wr_post_error : forall w w1 r1 w2 w3, cond w = EOk true w1 -> terminates body w1 r1 ->
    r1 = ONorm w2 \/ r1 = OCont w2 -> post w2 = EErr w3 -> while_runs cond body post w (OErr w3)
| wr_break : forall w w1 w2, cond w = EOk true w1 -> terminates body w1 (OBrk w2) ->
    while_runs cond body post w (ONorm w2)
| wr_return : forall w w1 vs w2, cond w = EOk true w1 -> terminates body w1 (ORet vs w2) ->
    while_runs cond body post w (ORet vs w2)
| wr_body_error : forall w w1 w2, cond w = EOk true w1 -> terminates body w1 (OErr w2) ->
    while_runs cond body post w (OErr w2).

Inductive do_runs (body : sden) (cond : W S -> ev (W S) bool) : W S -> out -> Prop :=
| dr_next : forall w r1 w1 w2 r, terminates body w r1 -> r1 = ONorm w1 \/ r1 = OCont w1 ->
    cond w1 = EOk true w2 -> do_runs body cond w2 r -> do_runs body cond w r
| dr_stop : forall w r1 w1 w2, terminates body w r1 -> r1 = ONorm w1 \/ r1 = OCont w1 ->
    cond w1 = EOk false w2 -> do_runs body cond w (ONorm w2)
| dr_cond_error : forall w r1 w1 w2, terminates body w r1 -> r1 = ONorm w1 \/ r1 = OCont w1 ->
    cond w1 = EErr w2 -> do_runs body cond w (OErr w2)
| dr_break : forall w w1, terminates body w (OBrk w1) -> do_runs body cond w (ONorm w1)
| dr_return : forall w vs w1, terminates body w (ORet vs w1) -> do_runs body cond w (ORet vs w1)
| dr_body_error : forall w w1, terminates body w (OErr w1) -> do_runs body cond w (OErr w1).

(** The iterator in variable [it] is asked for something. *)
Definition ask (it : nat) (k : itfun) (n : nat) (w : W S) : ev (W S) (list (V S)) :=
  ebind (itload S k (vget S w (Local it)) w) (fun f w1 =>
  ebind (itcall S n f w1) (fun vs w2 => EOk (fit S n vs) w2)).
(** for-in: is there another element? *)
Definition more (it : nat) (w : W S) : ev (W S) bool :=
  ebind (ask it ItEnd 1 w) (fun vs w1 =>
  ebind (truth S (hd (undefv S) vs) w1) (fun b w2 => EOk (negb b) w2)).
(** The values of the element go to the variables: the lowest one to the last
    variable. *)
Definition fetch (xs : list nat) (it : nat) (w : W S) : ev (W S) unit :=
  ebind (ask it ItGet (length xs) w) (fun vs w1 =>
  assign_all (combine (rev (map (fun x => lvar S (Local x)) xs)) vs) w1).
Definition advance (it : nat) (w : W S) : ev (W S) unit :=
  ebind (ask it ItNext 0 w) (fun _ w1 => EOk tt w1).

(** Switch: the labels are compared in the order they are written, until one is
    equal; the default clause is taken if none is. *)
Fixpoint match_labels (ls : list label) (v : V S) (w : W S) : ev (W S) bool :=
  match ls with
  | [] => EOk false w
  | LDefault :: ls' => match_labels ls' v w
  | LCase a :: ls' =>
      ebind (eval_operand S a w) (fun k w1 =>
      ebind (caseeq S v k w1) (fun b w2 =>
      if b then EOk true w2 else match_labels ls' v w2))
  end.
Fixpoint select (i : nat) (cs : clauses) (v : V S) (w : W S) : ev (W S) (option nat) :=
  match cs with
  | CNil => EOk None w
  | CCons ls _ _ cs' =>
      ebind (match_labels ls v w) (fun b w1 =>
      if b then EOk (Some i) w1 else select (Datatypes.S i) cs' v w1)
  end.
Definition is_default (l : label) : bool := match l with LDefault => true | _ => false end.
Fixpoint default_at (i : nat) (cs : clauses) : option nat :=
  match cs with
  | CNil => None
  | CCons ls _ _ cs' => if existsb is_default ls then Some i else default_at (Datatypes.S i) cs'
  end.

Fixpoint exec_stmt (s : stmt) : sden := fun f w =>
  match s with
  | SSkip => Some (ONorm w)
  | SExprs es => Some (of_unit (exec_seq es w))
  | SMulti ls rs => Some (of_unit (exec_multi ls rs w))
  | SVar x oe => Some (of_unit (exec_var x oe w))
  | SReturn es =>
      Some (match eval_list S (rets_den es) w with
            | EOk vs w1 => ORet vs w1
            | EErr w1 => OErr w1
            end)
  | SBlock b => exec_block false b f w
  | SIf c b r =>
      match test c w with
      | EErr w1 => Some (OErr w1)
      | EOk true w1 => exec_block false b f w1
      | EOk false w1 => exec_els r f w1
      end
  | SWhile c b => loop (test c) (exec_block true b) (fun w1 => EOk tt w1) f w
  | SDo b c => do_loop (exec_block true b) (test c) f w
  | SFor z init c post b =>
      let cond := match c with Some e => test e | None => fun w1 => EOk true w1 end in
      let run w1 := loop cond (exec_block true b) (exec_seq post) f w1 in
      match init with
      | FiNone => run w
      | FiExprs es => then_ (Some (of_unit (exec_seq es w))) run
      | FiVars vs => leaving z (then_ (Some (of_unit (exec_vars vs w))) run)
      end
  | SForIn z xs it a b =>
      leaving z (then_
        (Some (of_unit (ebind (eval_operand S a w) (fun v w1 => itinit S v (lvar S (Local it)) w1))))
        (fun w1 => loop (more it)
           (fun f1 w2 => then_ (Some (of_unit (fetch xs it w2))) (exec_block true b f1))
           (advance it) f w1))
  | SSwitch e cs =>
      match eval_expr S e w with
      | EErr w1 => Some (OErr w1)
      | EOk v w1 =>
          match select 0 cs v w1 with
          | EErr w2 => Some (OErr w2)
          | EOk o w2 =>
              match (match o with Some k => Some k | None => default_at 0 cs end) with
              | None => Some (ONorm w2)
              | Some k => exec_clauses cs k f w2
              end
          end
      end
  | SBreak => Some (OBrk w)
  | SContinue => Some (OCont w)
  end
with exec_els (r : els) : sden := fun f w =>
  match r with
  | ElNone => Some (ONorm w)
  | ElBlock b => exec_block false b f w
  | ElIf c b r' =>
      match test c w with
      | EErr w1 => Some (OErr w1)
      | EOk true w1 => exec_block false b f w1
      | EOk false w1 => exec_els r' f w1
      end
  end
with exec_block (isloop : bool) (b : block) : sden := fun f w =>
  match b with
  | Blk z ss =>
      if decl_stmts ss || isloop then leaving z (exec_stmts ss f w) else exec_stmts ss f w
  end
with exec_stmts (ss : stmts) : sden := fun f w =>
  match ss with
  | SNil => Some (ONorm w)
  | SCons s ss' => then_ (exec_stmt s f w) (exec_stmts ss' f)
  end
(** The clauses from number [k] on, falling through until a break. *)
with exec_clauses (cs : clauses) (k : nat) : sden := fun f w =>
  match cs with
  | CNil => Some (ONorm w)
  | CCons _ ss brk cs' =>
      match k with
      | Datatypes.S k' => exec_clauses cs' k' f w
      | O =>
          match exec_stmts ss f w with
          | Some (ONorm w1) => if brk then Some (ONorm w1) else exec_clauses cs' O f w1
          | Some (OBrk w1) => Some (ONorm w1)
          | r => r
          end
      end
  end.

(** ** What the machine does for an outcome: started in [st0] with the open scopes
    [sc], it gets to instruction [q], to the break target [b] or to the continue
    target [k], with the same scopes open; or the function ends. *)
Definition does (C : code) (st0 : st S) (sc : list Z) (q b k : nat) (r : out) : Prop :=
  match r with
  | ONorm w => exists s, steps S C st0 (St S q s w sc)
  | OBrk w => exists s, steps S C st0 (St S b s w sc)
  | OCont w => exists s, steps S C st0 (St S k s w sc)
  | ORet vs w => exists s2 g, steps S C st0 s2 /\ step S C s2 = Done S (leave_all S sc w) (rev vs ++ g)
  | OErr w => fails S C st0 w
  end.

End Exec.

(** ** Statements the compiler handles as specified. *)
Section Guard.
Variable foldk : bop -> const -> const -> fold.
Variable good : bop -> const -> const -> bool.
Notation ok_expr := (ok_expr foldk good).
Notation ok_args := (ok_args foldk good).

Fixpoint ok_vars (vs : list (var * option expr)) : bool :=
  match vs with
  | [] => true
  | (x, None) :: vs' => ok_vars vs'
  | (x, Some e) :: vs' => ok_expr (var_expr x e) && ok_vars vs'
  end.
Definition ok_opt (x : var) (oe : option expr) : bool :=
  match oe with Some e => ok_expr (var_expr x e) | None => true end.
Definition ok_init (i : forinit) : bool :=
  match i with FiNone => true | FiVars vs => ok_vars vs | FiExprs es => ok_args es end.

(** Does the initialisation produce code? *)
Definition idle_init (i : forinit) : bool :=
  match i with
  | FiNone => true
  | FiVars vs => forallb (fun p => match snd p with None => true | Some _ => false end) vs
  | FiExprs es => match es with ENil => true | _ => false end
  end.

(** Does the last expression of a sequence assign?  (Then the condition that
    follows it is not mixed up with it, see StmtModel.) *)
Fixpoint settled (es : exprs) : bool :=
  match es with
  | ENil => true
  | ECons (Expr (TgCons _ _ _) _ _ _) ENil => true
  | ECons _ ENil => false
  | ECons _ es' => settled es'
  end.

(** Labels that are one load. *)
Definition plain_label (l : label) : bool :=
  match l with
  | LDefault => true
  | LCase (AConst _) | LCase AUndef | LCase ANull | LCase (AFun _) | LCase (AType _) | LCase (AVar _) => true
  | LCase _ => false
  end.
Fixpoint has_case (cs : clauses) : bool :=
  match cs with
  | CNil => false
  | CCons ls _ _ cs' => existsb (fun l => negb (is_default l)) ls || has_case cs'
  end.

(** Statements that certainly produce code. *)
Fixpoint emits (s : stmt) : bool :=
  match s with
  | SExprs (ECons _ _) => true
  | SMulti _ _ | SReturn _ | SIf _ _ _ | SWhile _ _ | SDo _ _ | SFor _ _ _ _ _ | SForIn _ _ _ _ _ | SBreak | SContinue => true
  | SVar _ (Some _) => true
  | SBlock b => emits_block b
  | _ => false
  end
with emits_block (b : block) : bool := match b with Blk _ ss => decl_stmts ss || emits_stmts ss end
with emits_stmts (ss : stmts) : bool :=
  match ss with SNil => false | SCons s ss' => emits s || emits_stmts ss' end.
Fixpoint emits_clauses (cs : clauses) : bool :=
  match cs with CNil => false | CCons _ ss _ cs' => emits_stmts ss || emits_clauses cs' end.

(** [b], [k]: may a break, a continue stand here?  Not inside a block (other
    than the loop body itself) that declares variables: see property C43. *)
Fixpoint ok_stmt (b k : bool) (s : stmt) : bool :=
  match s with
  | SSkip => true
  | SExprs es => ok_args es
  | SMulti ls rs => forallb (ok_target foldk good) ls && ok_args rs
  | SVar x oe => ok_opt x oe
  | SReturn es => ok_args es
  | SBlock bl => ok_block b k false bl
  | SIf c bl r => ok_expr c && ok_block b k false bl && ok_els b k r
  | SWhile c bl => ok_expr c && ok_block b k true bl
  | SDo bl c => ok_expr c && ok_block b k true bl
  | SFor _ init c post bl =>
      ok_init init && ok_args post && ok_block b k true bl &&
      match c with
      | Some e => ok_expr e && match init with FiExprs es => settled es | _ => true end
      | None => idle_init init
      end
  | SForIn _ xs _ a bl => (length xs <? 16)%nat && ok_operand foldk good a && ok_block b k true bl
  | SSwitch e cs => ok_expr e && has_case cs && emits_clauses cs && ok_clauses k cs
  | SBreak => b
  | SContinue => k
  end
with ok_els (b k : bool) (r : els) : bool :=
  match r with
  | ElNone => true
  | ElBlock bl => ok_block b k false bl
  | ElIf c bl r' => ok_expr c && ok_block b k false bl && ok_els b k r'
  end
with ok_block (b k : bool) (isloop : bool) (bl : block) : bool :=
  match bl with
  | Blk _ ss =>
      if isloop then ok_stmts true true ss
      else if decl_stmts ss then ok_stmts false false ss
      else ok_stmts b k ss
  end
with ok_stmts (b k : bool) (ss : stmts) : bool :=
  match ss with SNil => true | SCons s ss' => ok_stmt b k s && ok_stmts b k ss' end
with ok_clauses (k : bool) (cs : clauses) : bool :=
  match cs with
  | CNil => true
  | CCons ls ss _ cs' => forallb plain_label ls && ok_stmts true k ss && ok_clauses k cs'
  end.

End Guard.

(** ** Statements that leave nothing behind on the operand stack. *)
Section Tidy.
Variable is_call : Z -> bool.

(** Assignments, increments and calls. *)
Fixpoint action_operand (a : operand) : bool :=
  match a with
  | AIncDec _ _ _ => true
  | APrim p _ => is_call p
  | AParen e => action e
  | _ => false
  end
with action (e : expr) : bool :=
  match e with
  | Expr (TgCons _ _ _) _ _ _ => true
  | Expr TgNil hd ONil TNone => action_operand hd
  | _ => false
  end.
(** Operator expressions without [?:]. *)
Definition operators (e : expr) : bool :=
  match e with Expr TgNil _ (OCons _ _ _) TNone => true | _ => false end.
(** A sequence of expressions is tidy if the last one is an action, or, as a
    statement, at least does not end in [?:]. *)
Fixpoint tidy_seq (stm : bool) (es : exprs) : bool :=
  match es with
  | ENil => true
  | ECons e ENil => action e || (stm && operators e)
  | ECons _ es' => tidy_seq stm es'
  end.
Definition tidy_init (i : forinit) : bool :=
  match i with FiExprs es => tidy_seq false es | _ => true end.

Fixpoint tidy_stmt (s : stmt) : bool :=
  match s with
  | SExprs es => tidy_seq true es
  | SBlock bl => tidy_block bl
  | SIf _ bl r => tidy_block bl && tidy_els r
  | SWhile _ bl | SDo bl _ => tidy_block bl
  | SFor _ init _ post bl => tidy_init init && tidy_seq false post && tidy_block bl
  | SForIn _ _ _ _ bl => tidy_block bl
  | SSwitch _ cs => match default_at 0 cs with Some _ => tidy_clauses cs | None => false end
  | _ => true
  end
with tidy_els (r : els) : bool :=
  match r with
  | ElNone => true
  | ElBlock bl => tidy_block bl
  | ElIf _ bl r' => tidy_block bl && tidy_els r'
  end
with tidy_block (bl : block) : bool := match bl with Blk _ ss => tidy_stmts ss end
with tidy_stmts (ss : stmts) : bool :=
  match ss with SNil => true | SCons s ss' => tidy_stmt s && tidy_stmts ss' end
with tidy_clauses (cs : clauses) : bool :=
  match cs with CNil => true | CCons _ ss _ cs' => tidy_stmts ss && tidy_clauses cs' end.

End Tidy.
