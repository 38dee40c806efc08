(** Model of the scopes of the compiler, of the resolution of names and of the
    renumbering of local variables:
      src/core/scope/ScriptScope.cpp, src/core/scope/ScriptScopesFactory.cpp,
      src/core/function/ScriptFunction.cpp (registerLocal...),
      src/compiler/compiler.cpp, compiler_symbol.cpp, compiler_keyword_var.cpp,
      compiler_keyword_function.cpp, compiler_expression_optimize.cpp.

    Simplifications.
    - Only the parts of the compiler that touch scopes are modelled.  A program
      is a list of [op]s: declarations, uses, and the opening and closing of
      blocks and functions, in source order.  Everything else the compiler
      emits (jumps, literals, scope pushes...) is left out of the code.
    - The scopes that are open form a stack, innermost first; [scope_parent] of
      an open scope is the next one of the stack.  A scope is appended to the
      [scopes] of its parent when it is closed and not when it is opened: in
      between only its own descendants are created, so the order is the same.
    - The classes known to the engine are a predicate [ty] on names.  The body
      of a member function is a function whose scope is never searched from the
      outside; it is kept under the scope where its class is declared.
    - A slot is a natural number (the C++ type is [short]); a function has any
      number of parameters; parameters by reference, default values and [import]
      are left out. *)
From Coq Require Import ZArith List Bool Lia PeanoNat.
Import ListNotations.
Open Scope nat_scope.

(** Names of symbols.  Only their equality matters. *)
Definition name := Z.

(* ------------------------------------------------------------------ *)
(** * Symbols and scopes *)

(** [Symbol] (core/scope/Symbol.h): a variable with its [idx_position], or a
    function with its [n_params] and the id of its [ScriptFunction]. *)
Inductive kind : Type := KVar (slot : nat) | KFun (params : nat) (fid : nat).
Record sym : Type := mksym { y_id : nat; y_name : name; y_kind : kind }.

(** SCOPE_PROPERTY_IS_SCOPE_BLOCK / IS_SCOPE_FUNCTION / IS_SCOPE_CLASS
    (ScriptScope.h).  [SMethod]: the function scope of a member function. *)
Inductive skind : Type := SMain | SBlock | SFunc | SMethod.

(** [ScriptScope] (ScriptScope.h:24-60, ScriptScope.cpp:14-40): [id] is the id
    of the function it belongs to. *)
Inductive sc : Type :=
  Sc (k : skind) (fid : nat) (unused : bool) (vars funs : list sym) (kids : list sc).

Definition sc_kind (s : sc) := let '(Sc k _ _ _ _ _) := s in k.
Definition sc_fid (s : sc) := let '(Sc _ f _ _ _ _) := s in f.
Definition sc_unused (s : sc) := let '(Sc _ _ u _ _ _) := s in u.
Definition sc_vars (s : sc) := let '(Sc _ _ _ v _ _) := s in v.
Definition sc_funs (s : sc) := let '(Sc _ _ _ _ f _) := s in f.
Definition sc_kids (s : sc) := let '(Sc _ _ _ _ _ k) := s in k.

Definition add_var (y : sym) (s : sc) : sc :=
  let '(Sc k f u v g c) := s in Sc k f u (v ++ [y]) g c.
Definition add_fun (y : sym) (s : sc) : sc :=
  let '(Sc k f u v g c) := s in Sc k f u v (g ++ [y]) c.
Definition add_kids (l : list sc) (s : sc) : sc :=
  let '(Sc k f u v g c) := s in Sc k f u v g (c ++ l).

Definition is_fun (y : sym) : bool :=
  match y_kind y with KFun _ _ => true | KVar _ => false end.
Definition is_block (s : sc) : bool :=
  match sc_kind s with SBlock => true | _ => false end.

(** Comparison of one entry of [symbol_functions] (ScriptScope.cpp:269-272);
    [None] is ZS_NO_PARAMS_SYMBOL_ONLY. *)
Definition fun_match (x : name) (np : option nat) (y : sym) : bool :=
  Z.eqb (y_name y) x &&
  match np, y_kind y with
  | Some n, KFun m _ => Nat.eqb m n
  | _, _ => true
  end.

(** The loops over the symbols of one scope (ScriptScope.cpp:258-275). *)
Definition here (x : name) (np : option nat) (s : sc) : option sym :=
  match find (fun y => Z.eqb (y_name y) x) (sc_vars s) with
  | Some y => Some y
  | None => find (fun_match x np) (sc_funs s)
  end.

(** [ScriptScope::getSymbol] with direction DOWN (ScriptScope.cpp:278-286). *)
Fixpoint down (x : name) (np : option nat) (st : list sc) {struct st} : option sym :=
  match st with
  | [] => None
  | s :: r =>
    match here x np s with
    | Some y => Some y
    | None =>
      match r with
      | p :: _ => if Nat.eqb (sc_fid p) (sc_fid s) then down x np r else None
      | [] => None
      end
    end
  end.

(** [ScriptScope::getSymbol] with direction UP (ScriptScope.cpp:288-300). *)
Fixpoint up (x : name) (np : option nat) (s : sc) {struct s} : option sym :=
  match s with
  | Sc k f u v g c =>
    match here x np (Sc k f u v g c) with
    | Some y => Some y
    | None =>
      (fix go (l : list sc) : option sym :=
         match l with
         | [] => None
         | d :: t =>
           if Nat.eqb (sc_fid d) f
           then match up x np d with Some y => Some y | None => go t end
           else go t
         end) c
    end
  end.

(** [ScriptScope::getSymbol] with UP_AND_DOWN (ScriptScope.cpp:246-303): when
    the parent belongs to the same function its answer is returned at once. *)
Definition up_down (x : name) (np : option nat) (st : list sc) : option sym :=
  match st with
  | [] => None
  | s :: r =>
    match here x np s with
    | Some y => Some y
    | None =>
      match r with
      | p :: _ => if Nat.eqb (sc_fid p) (sc_fid s) then down x np r else up x np s
      | [] => up x np s
      end
    end
  end.

(** [ScriptScope::numInnerScopes] (ScriptScope.cpp:58-65, 97-99): the scopes up
    to the root, which is the main scope or the scope of a class. *)
Fixpoint inner (st : list sc) : nat :=
  match st with
  | [] => 0
  | s :: r =>
    match sc_kind s with
    | SMain => 1
    | SMethod => 2
    | _ => S (inner r)
    end
  end.

(** ZS_SCOPE_MAX_INNER_SCOPES_FUNCTION (ScriptScope.h:10). *)
Definition MAX_INNER : nat := 10.

(* ------------------------------------------------------------------ *)
(** * Instructions *)

(** An operand of an arithmetic instruction: the register of a local variable,
    or a member of [this] (INSTRUCTION_PROPERTY_ILOAD_R_ACCESS_THIS_VAR). *)
Inductive rarg : Type := AL (slot : nat) | AT (k : nat).

(** The instructions that refer to symbols.  [LoadLocal]: LOAD_LOCAL;
    [LoadFunction]: LOAD_FUNCTION, its operand is a [Symbol *];
    [StoreLocal]/[StoreGlobal]: PUSH_STK_LOCAL/PUSH_STK_GLOBAL followed by
    STORE_CONST (compiler_keyword_var.cpp:184-209); [OpR]/[OpRR]: an operator
    with the property ILOAD_R/ILOAD_RR; [OpStk]: an operator without operands. *)
Inductive instr : Type :=
| LoadLocal (n : nat)
| LoadFunction (id : nat)
| FindVariable (x : name)
| LoadType (x : name)
| LoadThis (k : nat)
| StoreLocal (n : nat)
| StoreGlobal (n : nat)
| OpR (a : rarg)
| OpRR (a b : rarg)
| OpStk.

(* ------------------------------------------------------------------ *)
(** * State of the compiler *)

(** The function being compiled ([EvalFunction]): its id, whether [this] may be
    used in it, [local_variables] (ids of symbols) and its instructions. *)
Record fstate : Type := mkfs {
  fs_fid : nat; fs_this : bool; fs_locals : list nat; fs_code : list instr }.

(** What a compiled [ScriptFunction] holds: [local_variables] and [instructions]. *)
Record func : Type := mkfunc { fn_locals : list nat; fn_code : list instr }.

(** [c_stack]: the open scopes; [c_fs]: [compiler_functions]; [c_next]: symbols
    created so far; [c_nfun]: functions created so far; [c_funs]: for every
    function its code, [None] while [instructions] is NULL; [c_orphans]: scopes
    of functions whose parent was deleted. *)
Record cst : Type := mkcst {
  c_stack : list sc; c_fs : list fstate; c_next : nat; c_nfun : nat;
  c_funs : list (nat * option func); c_orphans : list sc }.

Inductive rand : Type := RVar (x : name) | RThis (k : nat).

(** The operations of a source program.  [OVar]: [var x;]; [OConst]: [const x]
    initialised with a literal; [OUse]: [x] as an expression; [OBin]: [a + b];
    [OOpen]/[OClose]: braces of a block, [OClose true] when it is the body of a
    loop; [OFun]: [function f(ps){]; [OMethod]: the same in a class; [OEnd]: the
    brace that ends a function; [OBad]: anything the compiler rejects. *)
Inductive op : Type :=
| OVar (x : name)
| OConst (x : name)
| OUse (x : name)
| OBin (a b : rand)
| OOpen
| OClose (loop : bool)
| OFun (f : name) (ps : list name)
| OMethod (ps : list name)
| OEnd
| OBad.

Definition top_fs (s : cst) : option fstate :=
  match c_fs s with f :: _ => Some f | [] => None end.

Definition set_stack (l : list sc) (s : cst) : cst :=
  mkcst l (c_fs s) (c_next s) (c_nfun s) (c_funs s) (c_orphans s).
Definition emit (l : list instr) (s : cst) : cst :=
  match c_fs s with
  | f :: r => mkcst (c_stack s)
      (mkfs (fs_fid f) (fs_this f) (fs_locals f) (fs_code f ++ l) :: r)
      (c_next s) (c_nfun s) (c_funs s) (c_orphans s)
  | [] => s
  end.

(** [local_variables->push] and [symbol_variables->push]
    (ScriptFunction.cpp:599-611, ScriptScope.cpp:204-210). *)
Definition push_var (x : name) (s : cst) : cst :=
  match c_stack s, c_fs s with
  | t :: r, f :: q =>
    mkcst (add_var (mksym (c_next s) x (KVar (length (fs_locals f)))) t :: r)
      (mkfs (fs_fid f) (fs_this f) (fs_locals f ++ [c_next s]) (fs_code f) :: q)
      (S (c_next s)) (c_nfun s) (c_funs s) (c_orphans s)
  | _, _ => s
  end.

Section Types.
(** The names of the classes ([getScriptTypeId(name) != ZS_UNDEFINED_IDX]). *)
Variable ty : name -> bool.

(** [ScriptFunction::registerLocalVariable] (ScriptFunction.cpp:582-612) with
    [checkPreRegisterSymbol] (ScriptScope.cpp:145-173). *)
Definition register_var (x : name) (s : cst) : cst * bool :=
  if ty x then (s, false)
  else match up_down x None (c_stack s) with
       | Some _ => (s, false)
       | None => (push_var x s, true)
       end.

(** [ScriptFunction::registerLocalArgument] (ScriptFunction.cpp:555-580): only
    the current scope is checked. *)
Definition register_arg (x : name) (s : cst) : cst * bool :=
  if ty x then (s, false)
  else match c_stack s with
       | t :: _ =>
         match here x None t with
         | Some _ => (s, false)
         | None => (push_var x s, true)
         end
       | [] => (s, false)
       end.

Fixpoint register_args (ps : list name) (s : cst) {struct ps} : cst * bool :=
  match ps with
  | [] => (s, true)
  | x :: r =>
    match register_arg x s with
    | (s', true) => register_args r s'
    | (s', false) => (s', false)
    end
  end.

(** [compiler_symbol] on an identifier (compiler_symbol.cpp:143-195), and the
    test for a class (compiler_expression_token_symbol.cpp:286-293).  [None]:
    the symbol is not defined and the main function is being compiled. *)
Definition load_sym (x : name) (s : cst) : option instr :=
  if ty x then Some (LoadType x)
  else match down x None (c_stack s) with
       | Some y => match y_kind y with
                   | KFun _ _ => Some (LoadFunction (y_id y))
                   | KVar n => Some (LoadLocal n)
                   end
       | None => match c_fs s with
                 | f :: _ :: _ => Some (FindVariable x)
                 | _ => None
                 end
       end.

(** A use of [this] outside member functions is an error
    (compiler_expression_token_symbol.cpp:571-578). *)
Definition load_rand (a : rand) (s : cst) : option instr :=
  match a with
  | RVar x => load_sym x s
  | RThis k => match c_fs s with
               | f :: _ => if fs_this f then Some (LoadThis k) else None
               | [] => None
               end
  end.

(** ZS_MAX_REGISTER_LENGTH (compiler_expression_optimize.cpp:5). *)
Definition MAX_REG : nat := 128.

(** [compiler_expression_get_register] (compiler_expression_optimize.cpp:125-181). *)
Definition as_register (i : instr) : option rarg :=
  match i with
  | LoadLocal n => if Nat.ltb n MAX_REG then Some (AL n) else None
  | LoadThis k => if Nat.ltb k MAX_REG then Some (AT k) else None
  | _ => None
  end.

(** The code of [a + b] (compiler_expression_optimize.cpp:466-484, 518-547). *)
Definition bin_code (i j : instr) : list instr :=
  match as_register i, as_register j with
  | Some a, Some b => [OpRR a b]
  | None, Some b => [i; OpR b]
  | _, None => [i; j; OpStk]
  end.

(* ------------------------------------------------------------------ *)
(** * Renumbering of local variables *)

(** The variables of a function in the order of
    [compiler_fill_lookup_local_variable] (compiler.cpp:495-511): those of the
    scope, then those of its blocks. *)
Fixpoint preorder (s : sc) {struct s} : list sym :=
  match s with
  | Sc _ _ _ v _ c =>
    v ++ (fix go (l : list sc) : list sym :=
            match l with
            | [] => []
            | d :: t => (if is_block d then preorder d else []) ++ go t
            end) c
  end.

(** [idx_position] of a variable. *)
Definition slot (y : sym) : nat := match y_kind y with KVar n => n | KFun _ _ => 0 end.

(** [compiler_all_local_variables_in_scopes_already_sorted] (compiler.cpp:472-493). *)
Fixpoint sorted_from (n : nat) (l : list nat) : bool :=
  match l with
  | [] => true
  | k :: r => if Nat.eqb k n then sorted_from (S n) r else false
  end.

(** [ScriptScope::countVariables(true)] (ScriptScope.cpp:101-121). *)
Fixpoint count_vars (id : nat) (s : sc) {struct s} : nat :=
  match s with
  | Sc _ f _ v _ c =>
    if Nat.eqb f id
    then length v + (fix go (l : list sc) : nat :=
                       match l with [] => 0 | d :: t => count_vars id d + go t end) c
    else 0
  end.

(** The lookup table: [n_var_fun] cells of uninitialised memory, cell
    [idx_position] of the k-th variable set to k (compiler.cpp:497-500, 533-538).
    Writing beyond the end is undefined. *)
Fixpoint set_nth {A} (n : nat) (a : A) (l : list A) : option (list A) :=
  match n, l with
  | 0, _ :: r => Some (a :: r)
  | S m, b :: r => match set_nth m a r with Some r' => Some (b :: r') | None => None end
  | _, [] => None
  end.

Fixpoint fill (order : list nat) (n : nat) (t : list (option nat)) : option (list (option nat)) :=
  match order with
  | [] => Some t
  | k :: r => match set_nth k (Some n) t with
              | Some t' => fill r (S n) t'
              | None => None
              end
  end.

(** Reading the table: [None] when the index is out of range or the cell was
    never written. *)
Definition look (t : list (option nat)) (k : nat) : option nat :=
  match nth_error t k with Some (Some m) => Some m | _ => None end.

(** [value_op1] is a [uint8_t] (Instruction.h:95) and the second register is
    read as [(value_op2&0xff0000)>>16] (vm_pop_stk.h:70). *)
Definition byte (n : nat) : nat := Z.to_nat (Z.modulo (Z.of_nat n) 256).

(** The rewriting of one instruction (compiler.cpp:675-712).  The test of
    ILOAD_R_ACCESS_THIS_VAR only looks at the properties of the instruction,
    where the first operand of an [OpRR] has its flag. *)
Definition rewrite1 (t : list (option nat)) (i : instr) : option instr :=
  match i with
  | LoadLocal n => option_map LoadLocal (look t n)
  | StoreLocal n => option_map StoreLocal (look t n)
  | OpR (AL n) => option_map (fun m => OpR (AL (byte m))) (look t n)
  | OpRR (AL n) b =>
    match look t n with
    | Some m =>
      match b with
      | AL n' => option_map (fun m' => OpRR (AL (byte m)) (AL (byte m'))) (look t n')
      | AT k => option_map (fun k' => OpRR (AL (byte m)) (AT (byte k'))) (look t k)
      end
    | None => None
    end
  | _ => Some i
  end.

Fixpoint rewrite_code (t : list (option nat)) (l : list instr) : option (list instr) :=
  match l with
  | [] => Some []
  | i :: r => match rewrite1 t i, rewrite_code t r with
              | Some i', Some r' => Some (i' :: r')
              | _, _ => None
              end
  end.

(** [s->idx_position=lookup[idx_var]] for every symbol of [local_variables]
    (compiler.cpp:731-736), as a map over the scopes that own the symbols. *)
Definition move_sym (m : list (nat * nat)) (y : sym) : sym :=
  match find (fun p => Nat.eqb (fst p) (y_id y)) m with
  | Some (_, n) => mksym (y_id y) (y_name y) (KVar n)
  | None => y
  end.

Fixpoint move_sc (m : list (nat * nat)) (s : sc) {struct s} : sc :=
  match s with
  | Sc k f u v g c =>
    Sc k f u (map (move_sym m) v) g
       ((fix go (l : list sc) : list sc :=
           match l with [] => [] | d :: t => move_sc m d :: go t end) c)
  end.

(** [local_vars_dst] and the new positions (compiler.cpp:727-739). *)
Fixpoint gather (locals order : list nat) (t : list (option nat))
  : option (list nat * list (nat * nat)) :=
  match order with
  | [] => Some ([], [])
  | k :: r =>
    match nth_error locals k, look t k, gather locals r t with
    | Some i, Some n, Some (l, m) => Some (i :: l, (i, n) :: m)
    | _, _, _ => None
    end
  end.

(** The outcome of [compiler_pop_and_compile_function]: [PErr] is the error
    "n_var_fun != n_var_scope", [PUndef] an access outside a table. *)
Inductive popres : Type := POk (f : func) (s : sc) | PErr | PUndef.

(** [compiler_pop_and_compile_function] (compiler.cpp:513-765): the compiled
    function and its scope. *)
Definition finalize (f : fstate) (s : sc) : popres :=
  let order := map slot (preorder s) in
  if sorted_from 0 order then POk (mkfunc (fs_locals f) (fs_code f)) s
  else if Nat.eqb (length (fs_locals f)) (count_vars (sc_fid s) s) then
    match fill order 0 (repeat None (length (fs_locals f))) with
    | Some t =>
      match rewrite_code t (fs_code f), gather (fs_locals f) order t with
      | Some code, Some (locals, m) => POk (mkfunc locals code) (move_sc m s)
      | _, _ => PUndef
      end
    | None => PUndef
    end
  else PErr.

(* ------------------------------------------------------------------ *)
(** * Steps of the compiler *)

Definition set_func (l : list (nat * option func)) (i : nat) (v : option func)
  : list (nat * option func) :=
  (i, v) :: filter (fun p => negb (Nat.eqb (fst p) i)) l.

(** [symbol_repeat->n_params=...] (ScriptFunction.cpp:668). *)
Definition set_params (id np : nat) (y : sym) : sym :=
  if Nat.eqb (y_id y) id
  then match y_kind y with
       | KFun _ f => mksym (y_id y) (y_name y) (KFun np f)
       | KVar _ => y
       end
  else y.
Definition map_funs (g : sym -> sym) (s : sc) : sc :=
  let '(Sc k f u v l c) := s in Sc k f u v (map g l) c.

(** [ScriptFunction::registerLocalFunction] (ScriptFunction.cpp:614-700) for
    script functions, with [ScriptFunctionsFactory::newFunction]
    (ScriptFunctionsFactory.cpp:36-84).  The answer is the id of the function. *)
Definition register_fun (x : name) (np : nat) (s : cst) : cst * option nat :=
  match c_stack s with
  | [] => (s, None)
  | t :: r =>
    match down x None (t :: r) with
    | Some y =>
      match y_kind y with
      | KVar _ => (s, None)
      | KFun _ f =>
        if existsb (fun z => Nat.eqb (y_id z) (y_id y)) (sc_funs t)
        then (mkcst (map_funs (set_params (y_id y) np) t :: r) (c_fs s) (c_next s)
                (c_nfun s) (set_func (c_funs s) f None) (c_orphans s), Some f)
        else (s, None)
      end
    | None =>
      if ty x then (s, None)
      else match up_down x (Some np) (t :: r) with
           | Some _ => (s, None)
           | None =>
             (mkcst (add_fun (mksym (c_next s) x (KFun np (c_nfun s))) t :: r) (c_fs s)
                (S (c_next s)) (S (c_nfun s)) (set_func (c_funs s) (c_nfun s) None)
                (c_orphans s), Some (c_nfun s))
           end
    end
  end.

(** [compiler_push_function] and [compiler_block_function]
    (compiler.cpp:445-449, 252-296): new function scope, arguments, and the
    check of the depth of the enclosing scope. *)
Definition enter (k : skind) (fid : nat) (th : bool) (ps : list name) (s : cst)
  : cst * bool :=
  let depth := match k with SMethod => 1 | _ => inner (c_stack s) end in
  match register_args ps
          (mkcst (Sc k fid false [] [] [] :: c_stack s)
             (mkfs fid th [] [] :: c_fs s) (c_next s) (c_nfun s) (c_funs s) (c_orphans s)) with
  | (s', true) => (s', Nat.ltb depth MAX_INNER)
  | (s', false) => (s', false)
  end.

(** [compiler_check_scope] (compiler.cpp:161-181) and
    [ScriptScope::markAsUnusued] (ScriptScope.cpp:124-139): the scopes a closed
    block adds to its parent. *)
Definition close_block (loop : bool) (s : sc) : list sc :=
  let '(Sc k f u v g c) := s in
  match v with
  | [] => if loop then [Sc k f u v g c] else Sc k f true v g [] :: c
  | _ => [Sc k f u v g c]
  end.

(** How a step ends: [Go], an error of the compiler, or undefined behaviour. *)
Inductive status : Type := Go | Fail | Undef.
Definition ok (r : cst * bool) : cst * status :=
  (fst r, if snd r then Go else Fail).

Definition step (o : op) (s : cst) : cst * status :=
  match o with
  | OVar x => ok (register_var x s)
  | OConst x =>
    (* compiler_keyword_var.cpp:32, 105-209 *)
    match register_var x s with
    | (s', true) =>
      match c_stack s, c_fs s with
      | t :: _, f :: _ =>
        let n := length (fs_locals f) in
        (emit [match sc_kind t with SMain => StoreGlobal n | _ => StoreLocal n end] s', Go)
      | _, _ => (s', Fail)
      end
    | (s', false) => (s', Fail)
    end
  | OUse x =>
    match load_sym x s with
    | Some i => (emit [i] s, Go)
    | None => (s, Fail)
    end
  | OBin a b =>
    match load_rand a s, load_rand b s with
    | Some i, Some j => (emit (bin_code i j) s, Go)
    | _, _ => (s, Fail)
    end
  | OOpen =>
    (* compiler_block_body and compiler_block_internal, compiler.cpp:183-250 *)
    match c_stack s with
    | t :: _ =>
      if Nat.leb MAX_INNER (inner (c_stack s)) then (s, Fail)
      else (set_stack (Sc SBlock (sc_fid t) false [] [] [] :: c_stack s) s, Go)
    | [] => (s, Fail)
    end
  | OClose loop =>
    match c_stack s with
    | t :: p :: r =>
      if is_block t
      then (set_stack (add_kids (close_block loop t) p :: r) s, Go)
      else (s, Fail)
    | _ => (s, Fail)
    end
  | OFun f ps =>
    match register_fun f (length ps) s with
    | (s', Some fid) =>
      ok (enter SFunc fid (match c_fs s with g :: _ => fs_this g | [] => false end) ps s')
    | (s', None) => (s', Fail)
    end
  | OMethod ps =>
    ok (enter SMethod (c_nfun s) true ps
          (mkcst (c_stack s) (c_fs s) (c_next s) (S (c_nfun s))
             (set_func (c_funs s) (c_nfun s) None) (c_orphans s)))
  | OEnd =>
    match c_stack s, c_fs s with
    | t :: p :: r, f :: g :: q =>
      match sc_kind t with
      | SFunc | SMethod =>
        match finalize f t with
        | POk fn t' =>
          (mkcst (add_kids [t'] p :: r) (g :: q) (c_next s) (c_nfun s)
             (set_func (c_funs s) (fs_fid f) (Some fn)) (c_orphans s), Go)
        | PErr => (s, Fail)
        | PUndef => (s, Undef)
        end
      | _ => (s, Fail)
      end
    | _, _ => (s, Fail)
    end
  | OBad => (s, Fail)
  end.

Fixpoint run (l : list op) (s : cst) {struct l} : cst * status :=
  match l with
  | [] => (s, Go)
  | o :: r =>
    match step o s with
    | (s', Go) => run r s'
    | (s', e) => (s', e)
    end
  end.

(* ------------------------------------------------------------------ *)
(** * One compilation *)

(** [ScriptScopesFactory::clearUnusuedScopes] (ScriptScopesFactory.cpp:33-59):
    the scopes marked as unused disappear with their symbols. *)
Fixpoint prune (s : sc) {struct s} : sc :=
  match s with
  | Sc k f u v g c =>
    Sc k f u v g
      ((fix go (l : list sc) : list sc :=
          match l with
          | [] => []
          | d :: t => if sc_unused d then go t else prune d :: go t
          end) c)
  end.

(** The scopes of functions below the blocks that
    [markBlockScopeAsUnusuedScopesRecursive] (ScriptScope.cpp:75-94) deletes. *)
Fixpoint orphans (s : sc) {struct s} : list sc :=
  match s with
  | Sc k f u v g c =>
    match k with
    | SBlock =>
      (fix go (l : list sc) : list sc :=
         match l with [] => [] | d :: t => orphans d ++ go t end) c
    | _ => [Sc k f u v g c]
    end
  end.

(** [ScriptScope::removeChildrenBlockTypes] (ScriptScope.cpp:67-73) on the main
    scope; the second list is what lost its parent. *)
Definition drop_blocks (s : sc) : sc * list sc :=
  let '(Sc k f u v g c) := s in
  (Sc k f u v g (filter (fun d => negb (is_block d)) c),
   flat_map orphans (filter is_block c)).

(** The engine between two compilations: the main scope, the local variables
    and the code of the main function, the counters and the other functions. *)
Record engine : Type := mkeng {
  e_main : sc; e_locals : list nat; e_code : list instr; e_next : nat; e_nfun : nat;
  e_funs : list (nat * option func); e_orphans : list sc }.

Definition fresh : engine := mkeng (Sc SMain 0 false [] [] []) [] [] 0 1 [] [].

(** The open scopes after an error: they stay under their parents. *)
Fixpoint collapse (s : sc) (r : list sc) {struct r} : sc :=
  match r with
  | [] => s
  | p :: q => collapse (add_kids [s] p) q
  end.

(** [ScriptFunction::removeUnusuedScopes] (ScriptFunction.cpp:758-770) on the
    main function: its blocks are deleted and [local_variables] is cut. *)
Definition begin (e : engine) : cst :=
  let (m, o) := drop_blocks (e_main e) in
  let m' := prune m in
  mkcst [m'] [mkfs 0 false (firstn (count_vars 0 m') (e_locals e)) []]
    (e_next e) (e_nfun e) (e_funs e) (map prune (o ++ e_orphans e)).

Inductive cres : Type := CDone | CError | CUndef.

(** [compiler_compile_and_link] on the main function (compiler.cpp:62-134): the
    main function is popped and compiled even after an error. *)
Definition compile (l : list op) (e : engine) : engine * cres :=
  match run l (begin e) with
  | (_, Undef) => (e, CUndef)
  | (s, st) =>
    match c_stack s with
    | t :: r =>
      let m := prune (collapse t r) in
      match finalize (last (c_fs s) (mkfs 0 false [] [])) m with
      | POk fn m' =>
        (mkeng m' (fn_locals fn) (fn_code fn) (c_next s) (c_nfun s) (c_funs s)
           (map prune (c_orphans s)),
         match st, r with Go, [] => CDone | _, _ => CError end)
      | PErr => (e, CError)
      | PUndef => (e, CUndef)
      end
    | [] => (e, CError)
    end
  end.

(** A session: scripts compiled one after the other. *)
Fixpoint session (ls : list (list op)) (e : engine) {struct ls} : engine * list cres :=
  match ls with
  | [] => (e, [])
  | l :: r =>
    let (e', c) := compile l e in
    let (e'', cs) := session r e' in (e'', c :: cs)
  end.

(** [ScriptFunction::linkUnresolvedSymbols] (ScriptFunction.cpp:772-907) on a
    [FindVariable]: LOAD_TYPE, LOAD_FUNCTION or LOAD_GLOBAL; [None] when the
    instruction stays unresolved. *)
Inductive linked : Type := LType | LFunction (id : nat) | LGlobal (slot : nat).
Definition link (x : name) (e : engine) : option linked :=
  if ty x then Some LType
  else match down x None [e_main e] with
       | Some y => match y_kind y with
                   | KFun _ _ => Some (LFunction (y_id y))
                   | KVar n => Some (LGlobal n)
                   end
       | None => None
       end.
End Types.

(* ------------------------------------------------------------------ *)
(** * What the virtual machine does with the result *)

(** What an instruction reads or writes, in order. *)
Inductive access : Type :=
| Read (slot : nat) | Write (slot : nat) | Fn (id : nat) | Global (x : name)
| Type_ (x : name) | This (k : nat).

Definition acc_arg (a : rarg) : access := match a with AL n => Read n | AT k => This k end.

(** LOAD_LOCAL, LOAD_GLOBAL and STORE_CONST (vm_script_function.cpp:106-112);
    the frame of the main function starts at the bottom of the stack, so its
    local slot [n] is the global slot [n].  Operands of operators are loaded by
    VM_LOAD_STK_FROM_INSTRUCTION (vm_pop_stk.h:40-75). *)
Definition acc1 (i : instr) : list access :=
  match i with
  | LoadLocal n => [Read n]
  | LoadFunction id => [Fn id]
  | FindVariable x => [Global x]
  | LoadType x => [Type_ x]
  | LoadThis k => [This k]
  | StoreLocal n | StoreGlobal n => [Write n]
  | OpR a => [acc_arg a]
  | OpRR a b => [acc_arg a; acc_arg b]
  | OpStk => []
  end.
Definition accesses (l : list instr) : list access := flat_map acc1 l.

(** The slots that [vm_pop_scope] clears when a scope ends (vm.tcc:39-74): as
    many as the scope has variables, from the slot of the first one. *)
Definition pop_slots (s : sc) : list nat :=
  match sc_vars s with
  | [] => []
  | y :: _ => seq (slot y) (length (sc_vars s))
  end.

(** The scopes below a scope, itself included. *)
Fixpoint subscopes (s : sc) {struct s} : list sc :=
  match s with
  | Sc k f u v g c =>
    Sc k f u v g c ::
      (fix go (l : list sc) : list sc :=
         match l with [] => [] | d :: t => subscopes d ++ go t end) c
  end.

(** The [Symbol]s that were not deleted. *)
Definition live_syms (e : engine) : list sym :=
  flat_map (fun s => sc_vars s ++ sc_funs s)
    (flat_map subscopes (e_main e :: e_orphans e)).
Definition live (e : engine) (id : nat) : Prop := In id (map y_id (live_syms e)).
