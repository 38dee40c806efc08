(** Model of the script type registry, of single inheritance and of the ways a script
    reaches a member function:
    /repo/src/core/type/ScriptTypesFactory.cpp (checkTypeName, registerType,
    scriptTypeInheritsFrom), /repo/src/core/type/ScriptType.cpp (registerMemberVariable,
    registerMemberFunction, getSymbolMemberFunction), /repo/src/core/function/
    ScriptFunctionsFactory.cpp (newFunction), /repo/src/core/scope/ScriptScope.cpp
    (checkPreRegisterSymbol, getSymbol), /repo/src/vm/vm_container.cpp and vm_call.cpp
    (member calls), /repo/src/compiler/compiler.cpp (super calls).

    Simplifications:
    - a script type is its name, its base ids, the symbols of its scope and whether its field
      initializer exists. The field initializer is left out of the list of functions: its
      name, "@__field_initializer_N_@__", is not an identifier and is not searched by name;
    - the registered types start with the built-in ones, taken without members;
    - member functions are script functions, not static, whose name is not one of the
      metamethod names (ScriptType.cpp:383-690 checks their arguments and keeps some in
      another table);
    - member variables are the symbols of a class: its constants, properties and native
      variables (a `var` of a class is no symbol, it is created by the field initializer,
      compiler_keyword_var.cpp:111-150);
    - the main scope is the list of its variables and functions; blocks of the main program
      declare nothing. *)
From Coq Require Import List ZArith Bool Lia.
From Verif Require Import Base StringModel.
Import ListNotations.

Definition name := list Z.

(** String::operator== (String.cpp:265-285). *)
Fixpoint name_eqb (a b : name) : bool :=
  match a, b with
  | [], [] => true
  | x :: a', y :: b' => (x =? y)%Z && name_eqb a' b'
  | _, _ => false
  end.

Definition mem (n : name) (l : list name) : bool := existsb (name_eqb n) l.

(** A Symbol of [ScriptScope::symbol_functions] together with the ScriptFunction its
    [ref_ptr] refers to (Symbol.h, ScriptFunction.h): name, id of the function, and the type
    whose scope owns the function ([sf->scope->owner_type], [owner_script_type_id]). *)
Record msym : Type := mksym { s_name : name; s_fun : nat; s_owner : nat }.

(** ScriptType (ScriptType.h:14-60). *)
Record stype : Type := mktype {
  ty_name  : name;
  ty_bases : list nat;     (** [base_script_type_ids] *)
  ty_vars  : list name;    (** [scope->symbol_variables] *)
  ty_funs  : list msym;    (** [scope->symbol_functions] *)
  ty_init  : bool          (** [sf_field_initializer != NULL] *)
}.

(** The factories: [script_types], the symbols of the main scope, and the number of
    functions created so far ([script_functions->length()]). *)
Record registry : Type := mkreg { types : list stype; globals : list name; nfun : nat }.

(** MAX_REGISTER_CLASSES, ScriptTypesFactory.cpp:8. *)
Definition MAX_CLASSES : nat := 100.

(** getScriptType(name) / getScriptTypeId(name), ScriptTypesFactory.cpp:581-612: the first
    type with that name. *)
Fixpoint find_from (i : nat) (l : list stype) (n : name) : option nat :=
  match l with
  | [] => None
  | t :: r => if name_eqb (ty_name t) n then Some i else find_from (S i) r n
  end.
Definition find_type (r : registry) (n : name) : option nat := find_from 0 (types r) n.
Definition is_type (r : registry) (n : name) : bool :=
  match find_type r n with Some _ => true | None => false end.

Definition set_type (r : registry) (i : nat) (t : stype) : registry :=
  mkreg (upd (types r) i t) (globals r) (nfun r).

(** ScriptTypesFactory::checkTypeName, ScriptTypesFactory.cpp:377-407. [true]: accepted. The
    main scope is searched for types, variables and functions (ScriptScope.cpp:246-276). *)
Definition check_type_name (r : registry) (n : name) : bool :=
  (length (types r) <? MAX_CLASSES)%nat
  && negb (match n with [] => true | _ => false end)
  && negb (is_type r n) && negb (mem n (globals r)).

(** The symbols of a class scope by name: ScriptScope::getSymbol (ScriptScope.cpp:246-276)
    finds a variable first, then the first function. The class scope has no parent and its
    children belong to other functions. *)
Definition first_fun (t : stype) (n : name) : option msym :=
  find (fun s => name_eqb (s_name s) n) (ty_funs t).
Definition scope_has (t : stype) (n : name) : bool :=
  mem n (ty_vars t) || match first_fun t n with Some _ => true | None => false end.

(** ScriptType::getSymbolMemberFunction, ScriptType.cpp:713-732: the last function with that
    name. *)
Definition last_fun (l : list msym) (n : name) : option msym :=
  find (fun s => name_eqb (s_name s) n) (rev l).
Definition lookup (r : registry) (t : nat) (n : name) : option msym :=
  match nth_error (types r) t with Some ty => last_fun (ty_funs ty) n | None => None end.

(** ScriptScope::checkPreRegisterSymbol, ScriptScope.cpp:145-172, on a class scope: refuses
    the name of a type and the name of a symbol of the scope. *)
Definition pre_register (r : registry) (ty : stype) (n : name) : bool :=
  negb (is_type r n) && negb (scope_has ty n).

(** The loop copying the variables of the base type, ScriptTypesFactory.cpp:497-535:
    registerSymbolVariable with its checks; what was copied before an error stays. *)
Fixpoint copy_vars (r : registry) (i : nat) (vs : list name) : outcome registry unit :=
  match vs with
  | [] => Ret r tt
  | v :: vs' =>
      match nth_error (types r) i with
      | None => Undef
      | Some ty =>
          if pre_register r ty v
          then copy_vars (set_type r i (mktype (ty_name ty) (ty_bases ty) (ty_vars ty ++ [v])
                                               (ty_funs ty) (ty_init ty))) i vs'
          else Exc r
      end
  end.

(** The part of registerType for `extends`, ScriptTypesFactory.cpp:461-540, for the type [i]
    pushed just before: base type by name, copies of its functions (without checks), copies
    of its variables, base id. When the base found is the new type itself there is nothing
    to copy. *)
Definition inherit (r : registry) (i : nat) (b : name) : outcome registry unit :=
  match find_type r b with
  | None => Exc r
  | Some bi =>
      match nth_error (types r) bi, nth_error (types r) i with
      | Some bt, Some ty =>
          let r1 := set_type r i (mktype (ty_name ty) (ty_bases ty) (ty_vars ty)
                                         (ty_funs ty ++ ty_funs bt) (ty_init ty)) in
          bind (copy_vars r1 i (ty_vars bt)) (fun r2 _ =>
            match nth_error (types r2) i with
            | None => Undef
            | Some ty2 => Ret (set_type r2 i (mktype (ty_name ty2) (ty_bases ty2 ++ [bi])
                                                     (ty_vars ty2) (ty_funs ty2) (ty_init ty2))) tt
            end)
      | _, _ => Undef
      end
  end.

(** ScriptTypesFactory::registerType, ScriptTypesFactory.cpp:409-567, as called for
    `class n extends b` (compiler_keyword_class.cpp:65-90; [b] is empty without `extends`). *)
Definition register_type (r : registry) (n b : name) : outcome registry nat :=
  if check_type_name r n then
    let i := length (types r) in
    let r1 := mkreg (types r ++ [mktype n [] [] [] false]) (globals r) (nfun r) in
    bind (match b with [] => Ret r1 tt | _ => inherit r1 i b end) (fun r2 _ =>
      match nth_error (types r2) i with
      | None => Undef
      | Some ty => Ret (mkreg (upd (types r2) i (mktype (ty_name ty) (ty_bases ty) (ty_vars ty)
                                                        (ty_funs ty) true))
                              (globals r2) (S (nfun r2))) i
      end)
  else Exc r.

(** ScriptType::registerMemberVariable, ScriptType.cpp:149-169. *)
Definition register_variable (r : registry) (i : nat) (n : name) : outcome registry unit :=
  match nth_error (types r) i with
  | None => Undef
  | Some ty =>
      if scope_has ty n then Exc r
      else if pre_register r ty n
      then Ret (set_type r i (mktype (ty_name ty) (ty_bases ty) (ty_vars ty ++ [n])
                                     (ty_funs ty) (ty_init ty))) tt
      else Exc r
  end.

(** ScriptType::registerMemberFunction, ScriptType.cpp:310-382, and newFunction,
    ScriptFunctionsFactory.cpp:20-82, for a script function. [getSymbol] (ScriptType.cpp:734)
    looks for a variable first; its [ref_ptr], the index of a global, an offset or a
    MemberProperty, is then used as a ScriptFunction (lines 329-332): undefined. *)
Definition register_function (r : registry) (i : nat) (n : name) : outcome registry nat :=
  match nth_error (types r) i with
  | None => Undef
  | Some ty =>
      if mem n (ty_vars ty) then Undef
      else
        match last_fun (ty_funs ty) n with
        | Some s => if Nat.eqb (s_owner s) i then Exc r else
            let inherited := match first_fun ty n with
                             | Some s1 => negb (Nat.eqb (s_owner s1) i)
                             | None => false end in
            if inherited || ((negb (is_type r n) || name_eqb n (ty_name ty)) && negb (scope_has ty n))
            then Ret (mkreg (upd (types r) i
                              (mktype (ty_name ty) (ty_bases ty) (ty_vars ty)
                                      (ty_funs ty ++ [mksym n (nfun r) i]) (ty_init ty)))
                            (globals r) (S (nfun r))) (nfun r)
            else Exc r
        | None =>
            if (negb (is_type r n) || name_eqb n (ty_name ty)) && negb (scope_has ty n)
            then Ret (mkreg (upd (types r) i
                              (mktype (ty_name ty) (ty_bases ty) (ty_vars ty)
                                      (ty_funs ty ++ [mksym n (nfun r) i]) (ty_init ty)))
                            (globals r) (S (nfun r))) (nfun r)
            else Exc r
        end
  end.

(** A variable or function of the main scope: registerSymbolVariable/Function with
    checkPreRegisterSymbol, ScriptScope.cpp:145-240. *)
Definition register_global (r : registry) (n : name) : outcome registry unit :=
  if is_type r n || mem n (globals r) then Exc r
  else Ret (mkreg (types r) (n :: globals r) (nfun r)) tt.

(** ScriptTypesFactory::scriptTypeInheritsFrom, ScriptTypesFactory.cpp:683-700. [fuel] bounds
    the depth of the recursion; running out of it is [Loop] (the C++ recursion does not end
    and exhausts the stack). An id that is not registered makes Vector::get throw. *)
Fixpoint inherits (fuel : nat) (r : registry) (t u : nat) {struct fuel} : res bool :=
  match fuel with
  | O => Loop
  | S fuel' =>
      if Nat.eqb t u then Ok true
      else match nth_error (types r) t with
           | None => Thr
           | Some ty =>
               (fix any (bs : list nat) : res bool :=
                  match bs with
                  | [] => Ok false
                  | b :: bs' => do x <- inherits fuel' r b u;
                                if x then Ok true else any bs'
                  end) (ty_bases ty)
           end
  end.

(** The part of the constructor of a class object looking for a native base,
    ClassScriptObject.cpp:75-87, when none of the types is native: walks the first bases.
    The walk made by callConstructorMemberVariables (lines 113-125) is the same. *)
Fixpoint walk_bases (fuel : nat) (r : registry) (t : nat) {struct fuel} : res unit :=
  match fuel with
  | O => Loop
  | S fuel' =>
      match nth_error (types r) t with
      | None => Thr
      | Some ty => match ty_bases ty with [] => Ok tt | b :: _ => walk_bases fuel' r b end
      end
  end.

(** BYTE_CODE_INSTANCEOF on an object, vm_script_function.cpp:248-277: [u] is the type named
    on the right, [None] when there is no such type. *)
Definition instanceof (fuel : nat) (r : registry) (t : nat) (u : option nat) : res bool :=
  match u with None => Thr | Some u => inherits fuel r t u end.

(** ** Member calls *)

(** What a call reaches: a function, a field or variable of that name (not followed here), or
    a null pointer used as a symbol. *)
Inductive target : Type := TFun (f : nat) | TField | TNull.

(** `o.n(...)`: BYTE_CODE_LOAD_OBJECT_ITEM, vm_container.cpp:88-107 and 121-147. The [value_op2]
    of the instruction is a cache of the symbol found at the last execution; it is used
    again when its name is the name asked for, whatever the type of the object. *)
Definition member_call (r : registry) (n : name) (cache : option msym) (t : nat)
  : option msym * target :=
  let cached := match cache with
                | Some s => if name_eqb (s_name s) n then Some s else None
                | None => None
                end in
  let sym := match cached with Some s => Some s | None => lookup r t n end in
  (sym, match sym with Some s => TFun (s_fun s) | None => TField end).

(** A call site executed once for each object, by the types of the objects. *)
Fixpoint call_site (r : registry) (n : name) (cache : option msym) (ts : list nat) {struct ts}
  : list target :=
  match ts with
  | [] => []
  | t :: ts' => let (c, x) := member_call r n cache t in x :: call_site r n c ts'
  end.

(** `this.n(...)` in a function of type [owner], linked in registry [rl]
    (ScriptFunction.cpp:829-840: the first function of that name in the scope of the owner) and
    run in registry [r] on an object of type [t] (BYTE_CODE_THIS_CALL, vm_call.cpp:128-160):
    when it was linked, the symbol of the object's type is used without a test for NULL. *)
Definition this_call (rl r : registry) (owner : nat) (n : name) (t : nat) : target :=
  match nth_error (types rl) owner with
  | None => TField
  | Some ty =>
      match first_fun ty n with
      | None => TField
      | Some _ => match lookup r t n with Some s => TFun (s_fun s) | None => TNull end
      end
  end.

(** `super(...)` in the function at position [idx] of the functions of its owner:
    compiler.cpp:594-607, the nearest earlier function with the same name. [None]: the
    compile error at 609-629. *)
Definition super_call (r : registry) (owner idx : nat) : option msym :=
  match nth_error (types r) owner with
  | None => None
  | Some ty =>
      match nth_error (ty_funs ty) idx with
      | None => None
      | Some s => last_fun (firstn idx (ty_funs ty)) (s_name s)
      end
  end.

(** ** Histories *)

(** What a script (and the host evaluating several scripts) does to the registry. *)
Inductive top : Type :=
| DClass (n b : name)          (** class n [extends b] *)
| DVar (t : nat) (n : name)    (** const n in class t, or const t::n *)
| DFun (t : nat) (n : name)    (** function n in class t, or function t::n *)
| DGlobal (n : name).          (** var n or function n of the main program *)

(** [None]: undefined behaviour. An error leaves the engine usable: the host may go on. *)
Definition t_step (r : registry) (o : top) : option (registry * bool) :=
  match o with
  | DClass n b => match register_type r n b with
                  | Ret r' _ => Some (r', true) | Exc r' => Some (r', false) | Undef => None end
  | DVar t n => match register_variable r t n with
                | Ret r' _ => Some (r', true) | Exc r' => Some (r', false) | Undef => None end
  | DFun t n => match register_function r t n with
                | Ret r' _ => Some (r', true) | Exc r' => Some (r', false) | Undef => None end
  | DGlobal n => match register_global r n with
                 | Ret r' _ => Some (r', true) | Exc r' => Some (r', false) | Undef => None end
  end.

Fixpoint t_run (r : registry) (os : list top) : option (registry * list bool) :=
  match os with
  | [] => Some (r, [])
  | o :: os' => match t_step r o with
                | None => None
                | Some (r', ok) => match t_run r' os' with
                                   | None => None
                                   | Some (r'', oks) => Some (r'', ok :: oks)
                                   end
                end
  end.

(** The engine after its own types are registered (ScriptTypesFactory::init, lines 114-372). *)
Definition start (builtins : list name) : registry :=
  mkreg (map (fun n => mktype n [] [] [] false) builtins) [] 0.
