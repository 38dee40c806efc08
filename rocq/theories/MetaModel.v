(** Operators, setters and properties of classes written in the script.

    Source: /repo/src/vm/vm_call_metamethod.cpp, vm/vm_call.cpp:7-76 (vm_inner_call),
    vm/vm_pop_stk.h, the comparison of vm/vm_operation.h:157-224, vm/vm_container.cpp:244-290
    and 346-385, vm/vm_store.cpp:70-205, core/type/ScriptType.cpp:175-207 and 310-690,
    core/type/ScriptTypesFactory.cpp:461-530, compiler/compiler_keyword_class.cpp:310-500,
    core/MetamethodHelper.cpp.

    Simplifications.
    - The body of a script function is any function from the state of the objects, the object
      it runs on and its arguments to a new state and what it returned; the slots of the
      stack it used above its result are left with any contents ([f_junk]).
    - Native objects and their overloaded functions are not modelled (see NativeModel), nor
      the counts of references (see ShareModel), nor the text of errors.
    - The new string, array or object that [+] may build is given as the request to build it
      ([Built]); see ValueModel. *)
From Coq Require Import List ZArith Bool String Lia.
From Verif Require Export ValueModel.
Import ListNotations.
Open Scope Z_scope.

Definition undef : stk := Stk 0 P_UNDEFINED.

(** What the bodies of functions can see and change: the objects, their member variables,
    and anything written outside (say the console). *)
Record usr := Usr {
  hp : heap;
  fld : Z -> string -> stk;
  txt : stk -> list Z;
  out : list stk
}.

(** How the body ended: at END_FUNCTION (vm_script_function.cpp:673-684), at RET
    (vm_script_function.cpp:360-398) with the elements above the local variables, or by a
    script error. *)
Inductive fres := REnd | RRet (l : list stk) | RErr.

Record fn := Fn {
  f_params : nat;
  f_locals : nat;         (* local_variables->length(): arguments and variables *)
  f_static : bool;
  f_body : usr -> option Z -> list stk -> usr * fres;
  f_junk : usr -> option Z -> list stk -> nat -> stk
}.

(** The machine: data->vm_stack, data->vm_stk_current, the two elements of
    vm_script_function.cpp:59, data->vm_error. *)
Record vm := Vm {
  mem : nat -> stk;
  sp : nat;
  aux1 : stk;
  aux2 : stk;
  us : usr;
  err : bool
}.

Definition upd (m : nat -> stk) (n : nat) (v : stk) : nat -> stk :=
  fun k => if Nat.eqb k n then v else m k.
Definition with_mem (s : vm) (m : nat -> stk) (p : nat) : vm :=
  Vm m p (aux1 s) (aux2 s) (us s) (err s).
Definition push (s : vm) (v : stk) : vm := with_mem s (upd (mem s) (sp s) v) (S (sp s)).
Definition args_at (m : nat -> stk) (start n : nat) : list stk := map m (seq start n).

(** Where an operand is: stk_result_op1 and stk_result_op2 are pointers to a slot of the
    stack, to one of the two elements, or to a member variable. *)
Inductive loc := LStk (n : nat) | LAux1 | LAux2 | LFld (o : Z) (x : string).
Definition rd (s : vm) (l : loc) : stk :=
  match l with
  | LStk n => mem s n
  | LAux1 => aux1 s
  | LAux2 => aux2 s
  | LFld o x => fld (us s) o x
  end.

(** vm_execute_script_function (vm_script_function.cpp:42-701) with its local variables from
    [start].  Leaving the function sets the local variables undefined (vm_pop_scope,
    vm/vm.tcc:33-79); at END_FUNCTION the slot above them is set undefined and the top of the
    stack goes back to [start] (lines 680-684). *)
Definition exec (s : vm) (this : option Z) (f : fn) (start : nat) : vm :=
  let a := args_at (mem s) start (f_params f) in
  let base := (start + f_locals f)%nat in
  let (u, r) := f_body f (us s) this a in
  let rest := f_junk f (us s) this a in
  let m (top : nat -> stk) : nat -> stk := fun k =>
    if Nat.ltb k start then mem s k
    else if Nat.ltb k base then undef
    else top k in
  match r with
  | REnd => Vm (m (upd rest base undef)) start (aux1 s) (aux2 s) u (err s)
  | RErr => Vm (m rest) start (aux1 s) (aux2 s) u true
  | RRet l =>
      Vm (m (fun k => nth (k - base) l (rest k))) (base + List.length l)%nat (aux1 s) (aux2 s) u (err s)
  end.

(** Outcome of an instruction: the machine goes on, or the function is left because of a
    script error, or the behaviour is undefined. *)
Inductive res :=
| Go (s : vm)
| Built (s : vm) (o : opres)    (* a string, array or object was built and pushed *)
| Stop (s : vm)
| Undef.

(** vm_inner_call, vm/vm_call.cpp:7-76: with [back] the element returned is pushed; otherwise
    the top of the stack goes back to the first slot of the function and callers read that
    slot. [None]: script error. *)
Definition inner_call (s : vm) (this : option Z) (f : fn) (back : bool) : option vm :=
  let start := sp s in
  let s1 := exec s this f start in
  if err s1 then None
  else
    let ret := mem s1 (start + f_locals f)%nat in
    let s2 := with_mem s1 (mem s1) start in
    Some (if back then push s2 ret else s2).

(** Metamethods, core/Metamethod.h:12-53: operators of ValueModel, assignments, increments. *)
Inductive aop := ASet | AAdd | ASub | AMul | ADiv | AMod | AAnd | AOr | AXor | AShl | AShr.
Inductive inc := PostInc | PostDec | PreInc | PreDec.
Inductive mm := MOp (m : meta) | MAsg (a : aop) | MInc (i : inc) | MToStr | MIn | MBwcAsg.

Definition meta_eq_dec : forall a b : meta, {a = b} + {a <> b}. decide equality. Defined.
Definition aop_eq_dec : forall a b : aop, {a = b} + {a <> b}. decide equality. Defined.
Definition inc_eq_dec : forall a b : inc, {a = b} + {a <> b}. decide equality. Defined.
Definition mm_eq_dec : forall a b : mm, {a = b} + {a <> b}.
  decide equality; [apply meta_eq_dec | apply aop_eq_dec | apply inc_eq_dec]. Defined.

(** MetamethodHelper::isMetamethodStatic, MetamethodHelper.cpp:134-160 *)
Definition mm_static (m : mm) : bool :=
  match m with
  | MOp M_NOT | MOp M_NEG | MOp M_BWC => false
  | MOp _ => true
  | _ => false
  end.
(** MetamethodHelper::getMetamethodNumberArguments, MetamethodHelper.cpp:102-132 *)
Definition mm_args (m : mm) : nat :=
  match m with
  | MToStr | MInc _ | MOp M_NOT | MOp M_NEG | MOp M_BWC => 0
  | MAsg _ | MIn => 1
  | MOp _ | MBwcAsg => 2
  end.

(** MetamethodMembers of a property, core/MetamethodMembers.h:46-60; a script property has at
    most one function for each. *)
Record prop := Prop_ {
  p_get : option fn;
  p_set : aop -> option fn;
  p_inc : inc -> option fn
}.
(** A class: ScriptType::scope->symbol_functions in order of registration, of which the first
    [c_inh] were copied from the base; its own MetamethodMembers; its properties. *)
Record cls := Cls {
  c_methods : list (mm * fn);
  c_inh : nat;
  c_set : aop -> option fn;
  c_inc : inc -> option fn;
  c_neg : option fn;
  c_bwc : option fn;
  c_props : list (string * prop)
}.
Definition types := Z -> option cls.

(** ScriptType::getSymbolMemberFunction, ScriptType.cpp:713-732: the last one first. *)
Definition find_method (c : cls) (m : mm) : option fn :=
  match find (fun p => if mm_eq_dec (fst p) m then true else false) (rev (c_methods c)) with
  | Some p => Some (snd p)
  | None => None
  end.
Definition find_prop (c : cls) (x : string) : option prop :=
  match find (fun p => String.eqb (fst p) x) (c_props c) with
  | Some p => Some (snd p)
  | None => None
  end.

(** A new class, ScriptTypesFactory.cpp:440-530: the functions and the properties of the base
    are copied; metamethod_members of the class start empty (MetamethodMembers.cpp:46-54). *)
Definition new_class (base : option cls) : cls :=
  match base with
  | None => Cls [] 0 (fun _ => None) (fun _ => None) None None []
  | Some b => Cls (c_methods b) (List.length (c_methods b)) (fun _ => None) (fun _ => None) None None (c_props b)
  end.

Definition put {A} (dec : forall a b : A, {a = b} + {a <> b}) (g : A -> option fn) (k : A) (f : fn) :
  A -> option fn := fun x => if dec x k then Some f else g x.

(** ScriptType::registerMemberFunction for a metamethod written in the script,
    ScriptType.cpp:310-690. [None]: the class is refused. *)
Definition add_method (c : cls) (m : mm) (f : fn) : option cls :=
  if existsb (fun p => if mm_eq_dec (fst p) m then true else false) (skipn (c_inh c) (c_methods c))
  then None                                             (* 325-340 already defined *)
  else if xorb (mm_static m) (f_static f) then None     (* 395-407 *)
  else if Nat.ltb (f_params f) (mm_args m) then None    (* 571-579 *)
  else
    let ms := c_methods c ++ [(m, f)] in
    match m with
    | MBwcAsg => None                                   (* 671-681 *)
    | MAsg a =>                                         (* 611-637 *)
        match c_set c a with
        | Some _ => None
        | None => Some (Cls ms (c_inh c) (put aop_eq_dec (c_set c) a f) (c_inc c) (c_neg c) (c_bwc c) (c_props c))
        end
    | MInc i =>                                         (* 638-669 *)
        match c_inc c i with
        | Some _ => None
        | None => Some (Cls ms (c_inh c) (c_set c) (put inc_eq_dec (c_inc c) i f) (c_neg c) (c_bwc c) (c_props c))
        end
    | MOp M_NEG =>
        match c_neg c with
        | Some _ => None
        | None => Some (Cls ms (c_inh c) (c_set c) (c_inc c) (Some f) (c_bwc c) (c_props c))
        end
    | MOp M_BWC =>
        match c_bwc c with
        | Some _ => None
        | None => Some (Cls ms (c_inh c) (c_set c) (c_inc c) (c_neg c) (Some f) (c_props c))
        end
    | _ => Some (Cls ms (c_inh c) (c_set c) (c_inc c) (c_neg c) (c_bwc c) (c_props c))
    end.

(** A function of a property, compiler_keyword_class.cpp:383-490 *)
Inductive pmm := PGet | PInc (i : inc) | PAsg (a : aop).
Definition add_prop_fn (p : prop) (k : pmm) (f : fn) : option prop :=
  match k with
  | PGet => match p_get p with
            | Some _ => None
            | None => if Nat.eqb (f_params f) 0 then Some (Prop_ (Some f) (p_set p) (p_inc p)) else None
            end
  | PInc i => match p_inc p i with
              | Some _ => None
              | None => if Nat.eqb (f_params f) 0
                        then Some (Prop_ (p_get p) (p_set p) (put inc_eq_dec (p_inc p) i f)) else None
              end
  | PAsg a => if Nat.eqb (f_params f) 1
              then match p_set p a with
                   | Some _ => None
                   | None => Some (Prop_ (p_get p) (put aop_eq_dec (p_set p) a f) (p_inc p))
                   end
              else None
  end.
Fixpoint add_prop_fns (p : prop) (l : list (pmm * fn)) : option prop :=
  match l with
  | [] => Some p
  | (k, f) :: r => match add_prop_fn p k f with Some p' => add_prop_fns p' r | None => None end
  end.
Definition no_prop : prop := Prop_ None (fun _ => None) (fun _ => None).

(** registerMemberProperty, ScriptType.cpp:175-207: a name the class has already, its own or
    inherited, is refused. *)
Definition add_prop (c : cls) (x : string) (l : list (pmm * fn)) : option cls :=
  match find_prop c x with
  | Some _ => None
  | None =>
      match add_prop_fns no_prop l with
      | Some p => Some (Cls (c_methods c) (c_inh c) (c_set c) (c_inc c) (c_neg c) (c_bwc c) (c_props c ++ [(x, p)]))
      | None => None
      end
  end.

Inductive decl := DMethod (m : mm) (f : fn) | DProp (x : string) (l : list (pmm * fn)).
Definition add_decl (c : cls) (d : decl) : option cls :=
  match d with DMethod m f => add_method c m f | DProp x l => add_prop c x l end.
Fixpoint add_decls (c : cls) (ds : list decl) : option cls :=
  match ds with
  | [] => Some c
  | d :: r => match add_decl c d with Some c' => add_decls c' r | None => None end
  end.
(** The class a declaration makes: [class X extends base { ds }] *)
Definition class_of (base : option cls) (ds : list decl) : option cls := add_decls (new_class base) ds.

(** object->getScriptType() *)
Definition class_at (ct : types) (s : vm) (o : Z) : option cls :=
  match hp (us s) o with Some ob => ct (tid_of ob) | None => None end.

(** vm_call_metamethod, vm_call_metamethod.cpp:73-215, once the object [o] whose class is asked
    is known ([CallMeta] of [ValueModel.call_meta2]); [stat] is _is_static. Lines 108-116 copy
    the operands to the top of the stack one after the other. *)
Definition run_meta (ct : types) (s : vm) (m : meta) (o : Z) (stat : bool) (l1 l2 : loc) : res :=
  let start := sp s in
  let s1 := if stat then let s' := push s (rd s l1) in push s' (rd s' l2) else s in
  match class_at ct s o with
  | None => Stop s1
  | Some c =>
      match find_method c (MOp m) with
      | None => Stop s1
      | Some f =>
          if xorb stat (f_static f) then Stop s1
          else
            let s2 := exec s1 (if stat then None else Some o) f start in
            let r := (start + f_locals f)%nat in
            if Nat.eqb (sp s2) r then Stop s2          (* 201-204 *)
            else
              let s3 := push (with_mem s2 (mem s2) start) (mem s2 r) in
              if err s3 then Stop s3 else Go s3
      end
  end.

Definition finish (ct : types) (s : vm) (stat : bool) (l1 l2 : loc) (o : opres) : res :=
  match o with
  | Push v => Go (push s v)
  | CallMeta m ob _ _ => run_meta ct s m ob stat l1 l2
  | Fail => Stop s
  | UBd => Undef
  | x => Built s x
  end.

(** The operators with two operands *)
Inductive binop := OAdd | OSub | OMul | ODiv | OMod | OBit (b : bop) | OCmp (c : cmp).
Definition apply_op (o : binop) (u : usr) (a b : stk) : opres :=
  match o with
  | OAdd => op_add (hp u) (txt u) a b
  | OSub => op_sub (hp u) (txt u) a b
  | OMul => op_mul (hp u) (txt u) a b
  | ODiv => op_div (hp u) (txt u) a b
  | OMod => op_mod (hp u) (txt u) a b
  | OBit x => op_bits (hp u) (txt u) x a b
  | OCmp c => op_cmp (hp u) (txt u) c a b
  end.

(** vm_operation.h: the arithmetic and bit operators pass their two operands on (83-96, 112-125,
    142-154, 256-263, 279-288); a comparison copies them to stk_aux1 and stk_aux2, in this
    order, and passes those on (205-218). *)
Definition do_op (ct : types) (s : vm) (o : binop) (l1 l2 : loc) : res :=
  let r := apply_op o (us s) (rd s l1) (rd s l2) in
  match o, r with
  | OCmp c, CallMeta _ _ _ _ =>
      let s1 := Vm (mem s) (sp s) (rd s l1) (aux2 s) (us s) (err s) in
      let s2 := Vm (mem s1) (sp s1) (aux1 s1) (rd s1 l2) (us s1) (err s1) in
      finish ct s2 true LAux1 LAux2 (call_meta2 (hp (us s2)) (txt (us s2)) (cmp_meta c) (rd s2 LAux1) (rd s2 LAux2))
  | _, _ => finish ct s true l1 l2 r
  end.

(** Operands of an instruction: registers are local variables or members of this. *)
Inductive reg := RLoc (n : nat) | RThis (x : string).
Inductive form :=
| F0 | FK (k : stk) | FR (r : reg) | FKR (k : stk) (r : reg) | FRK (r : reg) (k : stk) | FRR (r1 r2 : reg).

(** VM_LOAD_STK_FROM_INSTRUCTION (vm_pop_stk.h:11-25) and vm_load_this_element
    (vm_container.cpp:346-385): the getter of a property runs one slot above the top of the
    stack, its first slot is the operand and the top of the stack goes back. *)
Definition load_reg (ct : types) (s : vm) (lb : nat) (this : Z) (r : reg) : option (vm * loc) :=
  match r with
  | RLoc n => Some (s, LStk (lb + n)%nat)
  | RThis x =>
      match class_at ct s this with
      | None => None
      | Some c =>
          match find_prop c x with
          | None => Some (s, LFld this x)
          | Some p =>
              match p_get p with
              | None => None
              | Some g =>
                  match inner_call (with_mem s (mem s) (S (sp s))) (Some this) g false with
                  | None => None
                  | Some s' => Some (with_mem s' (mem s') (sp s), LStk (sp s'))
                  end
              end
          end
      end
  end.

(** VM_POP_STK_TWO, vm_pop_stk.h:39-72 *)
Definition with_aux1 (s : vm) (k : stk) : vm := Vm (mem s) (sp s) k (aux2 s) (us s) (err s).
Definition pop_two (ct : types) (s : vm) (lb : nat) (this : Z) (f : form) : option (vm * loc * loc) :=
  match f with
  | F0 => Some (with_mem s (mem s) (sp s - 2), LStk (sp s - 2), LStk (sp s - 1))
  | FK k => Some (with_aux1 (with_mem s (mem s) (sp s - 1)) k, LStk (sp s - 1), LAux1)
  | FR r => match load_reg ct (with_mem s (mem s) (sp s - 1)) lb this r with
            | Some (s', l) => Some (s', LStk (sp s - 1), l) | None => None end
  | FKR k r => match load_reg ct (with_aux1 s k) lb this r with
               | Some (s', l) => Some (s', LAux1, l) | None => None end
  | FRK r k => match load_reg ct s lb this r with
               | Some (s', l) => Some (with_aux1 s' k, l, LAux1) | None => None end
  | FRR r1 r2 =>
      match load_reg ct s lb this r1 with
      | None => None
      | Some (s1, l1) =>
          match load_reg ct s1 lb this r2 with
          | None => None
          | Some (s2, l2) => Some (s2, l1, l2)
          end
      end
  end%nat.

(** One operator instruction, vm_script_function.cpp:108-190 *)
Definition op_instr (ct : types) (s : vm) (lb : nat) (this : Z) (o : binop) (f : form) : res :=
  match pop_two ct s lb this f with
  | None => Stop s
  | Some (s', l1, l2) => do_op ct s' o l1 l2
  end.

(** BYTE_CODE_NOT / NEG / BWC, vm_script_function.cpp:192-247: the operand is on the stack. *)
Inductive unop := UNot | UNeg | UBwc.
Definition apply_un (o : unop) (u : usr) (a : stk) : opres :=
  match o with UNot => op_not (hp u) a | UNeg => op_neg (hp u) a | UBwc => op_bwc (hp u) a end.
Definition un_instr (ct : types) (s : vm) (o : unop) : res :=
  let s1 := with_mem s (mem s) (sp s - 1)%nat in
  let l := LStk (sp s - 1)%nat in
  finish ct s1 false l l (apply_un o (us s1) (rd s1 l)).

(** Reading [o.p], or [this.p], of property [p]: vm_load_field, vm_container.cpp:244-275.  The
    element pushed is the one found at the top of the stack after the call. *)
Definition get_prop (s : vm) (o : Z) (p : prop) : res :=
  match p_get p with
  | None => Stop s
  | Some g =>
      match inner_call s (Some o) g false with
      | None => Stop s
      | Some s' => Go (with_mem s' (mem s') (S (sp s')))
      end
  end.

(** The setter of vm_store, vm_store.cpp:90-205: the value is copied one slot above the top of
    the stack; an error in the function is not looked at.  [s] has the destination popped. *)
Definition run_setter (s : vm) (o : Z) (f : fn) (v : stk) : vm :=
  let start := sp s in
  let s1 := with_mem s (upd (mem s) (S start) v) start in
  let s2 := exec s1 (Some o) f (S start) in
  with_mem s2 (mem s2) start.

(** [o.p = v] with [v] on the stack: PUSH_STK_OBJECT_ITEM pushes the property, STORE pops it
    (vm_store.cpp:78-90) and leaves [v] (a statement then resets the stack). *)
Definition set_prop (s : vm) (o : Z) (p : prop) : res :=
  match p_set p ASet with
  | None => Stop s
  | Some f => Go (run_setter s o f (mem s (sp s - 1)%nat))
  end.

(** STACK_ELEMENT_IS_CLASS_OBJECT, StackElement.h:13-24 *)
Definition class_object (u : usr) (v : stk) : bool :=
  match obj_of (hp u) v with
  | Some (Some (OOther _)) => true
  | _ => false
  end.

(** [this.p = v] with [v] on the stack: PUSH_STK_THIS_VARIABLE jumps over line 44 of
    vm_container.cpp, so instruction_store stays false and the getter is run (247-259); an
    object of a class it returned is pushed in place of the property and is no destination
    (vm_store.cpp:57-62); without getter the property is not readable (279-287). *)
Definition set_this_prop (s : vm) (o : Z) (p : prop) : res :=
  match p_get p with
  | None => Stop s
  | Some g =>
      match inner_call s (Some o) g false with
      | None => Stop s
      | Some s' => if class_object (us s') (mem s' (sp s')) then Stop s' else set_prop s' o p
      end
  end.

(** Destination of a store: a variable in slot [n]. [vm_store.cpp:70-90]: an object of a class
    with a setter runs it; otherwise the variable is written (see PassModel, AccessModel for
    what is written; here numbers, booleans, undefined, null and objects of classes). *)
Definition store_var (ct : types) (s : vm) (n : nat) (v : stk) : vm :=
  let d := mem s n in
  let plain := with_mem s (upd (mem s) n v) (sp s) in
  if class_object (us s) d then
    match class_at ct s (val d) with
    | Some c => match c_set c ASet with Some f => run_setter s (val d) f v | None => plain end
    | None => plain
    end
  else plain.

(** Left operand of a compound assignment or of an increment, ZS_LOAD_PROPERTIES,
    vm_operation.h:35-57: an object of a class or a property. *)
Inductive target := TObj (o : Z) | TProp (o : Z) (p : prop).

(** vm_call_metamethod_set, vm_call_metamethod.cpp:298-407, with the right operand [v] on top of
    the stack: the function runs on it; then the getter of a property gives the result, an
    object is its own result, a property without getter leaves itself ([mp]). *)
Definition set_op (ct : types) (s : vm) (a : aop) (t : target) (mp : stk) : res :=
  let s0 := with_mem s (mem s) (sp s - 1)%nat in
  let v := mem s (sp s - 1)%nat in
  if (props v =? P_UNDEFINED) || has (props v) P_NULL then Stop s0
  else
    let f := match t with
             | TObj o => match class_at ct s o with Some c => c_set c a | None => None end
             | TProp _ p => p_set p a
             end in
    let o := match t with TObj o => o | TProp o _ => o end in
    match f with
    | None => Stop s0
    | Some f =>
        match inner_call s0 (Some o) f false with
        | None => Stop s0
        | Some s1 =>
            match t with
            | TObj o => Go (push s1 (Stk o P_OBJECT))
            | TProp _ p =>
                match p_get p with
                | Some g => match inner_call s1 (Some o) g false with
                            | None => Stop s1
                            | Some s2 => Go (with_mem s2 (mem s2) (S (sp s2)))
                            end
                | None => Go (push s1 mp)
                end
            end
        end
    end.

(** vm_call_metamethod_operation_pre_post, vm_call_metamethod.cpp:409-468 *)
Definition inc_op (ct : types) (s : vm) (i : inc) (t : target) : res :=
  let f := match t with
           | TObj o => match class_at ct s o with Some c => c_inc c i | None => None end
           | TProp _ p => p_inc p i
           end in
  let o := match t with TObj o => o | TProp o _ => o end in
  match f with
  | None => Stop s
  | Some f => match inner_call s (Some o) f true with None => Stop s | Some s1 => Go s1 end
  end.

(** Instructions one after the other: vm_script_function.cpp goes to the next one unless the
    instruction left the function; it does not look at vm_error. *)
Fixpoint run (l : list (vm -> res)) (s : vm) : res :=
  match l with
  | [] => Go s
  | i :: r => match i s with Go s' => run r s' | x => x end
  end.
