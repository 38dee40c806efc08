(** Assignments between variables and the passing of arguments.

    Source: /repo/src/vm/vm_store.cpp:16-380, /repo/src/vm/vm_call.cpp:288-420,
    /repo/src/vm/vm_script_function.cpp:109-114, 321-330, 399-404, 505-507 (loads),
    /repo/src/compiler/compiler_symbol.cpp:170-190 and
    compiler_expression_token_symbol.cpp:436-470 (which load is emitted),
    /repo/src/core/object/StringScriptObject.cpp:301-303.

    What is kept: variables hold stack elements, a string variable holds a pointer to a
    string object that an assignment overwrites in place, a parameter passed by reference
    holds a VarRefObject with the element { variable, PTR_STK }, the frames of the active
    calls are one list of variables.

    Simplifications.
    - A program is a list of assignments and calls; the body of the function called is
      part of the call.  A run of a program with branches, loops or recursion performs one
      such list, so statements about all lists cover it.
    - Returned values, default arguments, variable arguments, constants (READ_ONLY), member
      variables and container slots are left out; a call has as many arguments as the
      function has parameters.
    - Operators are those of [ValueModel]; one that would run a metamethod, or join arrays
      or objects, stops the run like an error.
    - Reference counts are not kept: objects are never freed. *)
From Coq Require Import List ZArith Bool Lia.
From Verif Require Import Base FloatModel StringModel ValueModel.
Import ListNotations.
Local Open Scope Z_scope.

(** Stack elements, /repo/src/core/StackElement.h:63-100.  [EStr r]: OBJECT, string object
    number [r]; [EObj o]: OBJECT of another type; [ERef i]: OBJECT, a VarRefObject for
    variable [i]; [EPtr i]: PTR_STK, pointer to variable [i]. *)
Inductive elem :=
| EU | EN | EI (z : Z) | EF (bits : Z) | EB (b : bool) | EFun (f : Z) | ETy (t : Z)
| EStr (r : nat) | EObj (o : nat) | ERef (i : nat) | EPtr (i : nat).

(** A string object: its text, and SCRIPT_OBJECT_PROPERTY_CONSTANT. *)
Record strobj := SO { txt : list Z; konst : bool }.

(** Variables of all active frames, outermost first, and the string objects. *)
Record st := St { vars : list elem; strs : list strobj }.

Definition upd {A} (l : list A) (i : nat) (x : A) : list A := firstn i l ++ x :: skipn (S i) l.
Definition getv (s : st) (i : nat) : res elem := match nth_error (vars s) i with Some e => Ok e | None => UB end.
Definition gets (s : st) (r : nat) : res strobj := match nth_error (strs s) r with Some o => Ok o | None => UB end.
Definition setv (s : st) (i : nat) (e : elem) : st := St (upd (vars s) i e) (strs s).
(** StringScriptObject::set on an existing object. *)
Definition set_str (s : st) (r : nat) (t : list Z) : res st :=
  match gets s r with
  | Ok o => Ok (St (vars s) (upd (strs s) r (SO (set_text t) (konst o))))
  | _ => UB
  end.
(** ZS_NEW_STRING_SCRIPT_OBJECT and [set]. *)
Definition new_str (s : st) (t : list Z) : st * nat :=
  (St (vars s) (strs s ++ [SO (set_text t) false]), length (strs s)).

(** ** Operators on elements *)
(** Addresses: string objects, other objects and VarRefObjects. *)
Definition stk_of (e : elem) : stk :=
  match e with
  | EU => Stk 0 P_UNDEFINED
  | EN => Stk 0 P_NULL
  | EI z => Stk z P_INT
  | EF w => Stk w P_FLOAT
  | EB b => Stk (Z.b2z b) P_BOOL
  | EFun f => Stk f P_FUNCTION
  | ETy t => Stk t P_TYPE
  | EStr r => Stk (Z.of_nat r * 3) P_OBJECT
  | EObj o => Stk (Z.of_nat o * 3 + 1) P_OBJECT
  | ERef i => Stk (Z.of_nat i * 3 + 2) P_OBJECT
  | EPtr i => Stk (Z.of_nat i) P_PTR_STK
  end.
Definition heap_of (s : st) : heap := fun a =>
  if a mod 3 =? 0
  then match nth_error (strs s) (Z.to_nat (a / 3)) with Some o => Some (OStr (txt o)) | None => None end
  else Some (OOther (a mod 3 + 100)).

Inductive binop := BAdd | BSub | BMul | BCmp (c : cmp).

Section Run.
(** Text of an element that is no object (ScriptEngine::stackElementValueToString). *)
Variable text : stk -> list Z.

Definition run_binop (s : st) (o : binop) (a b : elem) : opres :=
  let h := heap_of s in
  match o with
  | BAdd => op_add h text (stk_of a) (stk_of b)
  | BSub => op_sub h text (stk_of a) (stk_of b)
  | BMul => op_mul h text (stk_of a) (stk_of b)
  | BCmp c => op_cmp h text c (stk_of a) (stk_of b)
  end.

(** The element an operator pushes; a text is already stored by [call_meta2]. *)
Definition pushed (s : st) (r : opres) : res (st * elem) :=
  match r with
  | Push k =>
      if props k =? P_INT then Ok (s, EI (val k))
      else if props k =? P_FLOAT then Ok (s, EF (val k))
      else if props k =? P_BOOL then Ok (s, EB (negb (val k =? 0)))
      else Thr
  | NewStr t => Ok (St (vars s) (strs s ++ [SO t false]), EStr (length (strs s)))
  | UBd => UB
  | _ => Thr
  end.

(** ** Expressions *)
(** A local variable of the running function, or a global (a variable of the outermost frame). *)
Inductive var := VLoc (i : nat) | VGlb (i : nat).
(** A string literal is the number of its constant object. *)
Inductive leaf := LVar (v : var) | LLit (e : elem).
Inductive rhs := RLeaf (l : leaf) | ROp (o : binop) (a b : leaf).

Definition slot (base : nat) (v : var) : nat := match v with VLoc i => base + i | VGlb i => i end.

(** LOAD_LOCAL / LOAD_GLOBAL push a copy of the variable (vm_script_function.cpp:109-114);
    for a parameter by reference the compiler emits LOAD_REF, which pushes the element inside
    the VarRefObject (lines 505-507). *)
Definition load (s : st) (base : nat) (l : leaf) : res elem :=
  match l with
  | LLit e => Ok e
  | LVar v =>
      match getv s (slot base v) with
      | Ok (ERef j) => Ok (EPtr j)
      | r => r
      end
  end.
Definition eval (s : st) (base : nat) (r : rhs) : res (st * elem) :=
  match r with
  | RLeaf l => match load s base l with Ok e => Ok (s, e) | Thr => Thr | UB => UB | Loop => Loop end
  | ROp o a b =>
      match load s base a, load s base b with
      | Ok x, Ok y => pushed s (run_binop s o x y)
      | _, _ => UB
      end
  end.

(** ** vm_store *)
(** The destination: PUSH_STK_LOCAL / PUSH_STK_GLOBAL push a pointer to the variable,
    LOAD_REF the pointer inside the VarRefObject (compiler_expression_byte_code.cpp:23);
    vm_store.cpp:45-53 follows it once. *)
Definition dest (s : st) (base : nat) (v : var) : res nat :=
  match getv s (slot base v) with
  | Ok (ERef j) => Ok j
  | Ok _ => Ok (slot base v)
  | _ => UB
  end.
(** vm_store.cpp:208-339 for destination variable [d]. *)
Definition store (s : st) (d : nat) (src : elem) : res st :=
  match getv s d with
  | Ok old =>
    (* lines 208-210 *)
    match match src with EPtr j => getv s j | _ => Ok src end with
    | Ok v =>
      match v with
      | EU | EN | EI _ | EF _ | EB _ | EFun _ | ETy _ => Ok (setv s d v)        (* 222-246 *)
      | EStr r =>                                                               (* 247-274 *)
          match gets s r with
          | Ok o =>
              match old with
              | EStr r' => set_str s r' (txt o)
              | _ => let (s', n) := new_str s (txt o) in Ok (setv s' d (EStr n))
              end
          | _ => UB
          end
      | EObj _ | ERef _ => Ok (setv s d v)                                      (* 277-322 *)
      | EPtr _ => Thr                                                           (* 323-327 *)
      end
    | _ => UB
    end
  | _ => UB
  end.

(** The stores of [a1,..,an = ..], the last one first: StmtModel, C37. *)
Fixpoint stores (s : st) (ds : list nat) (srcs : list elem) : res st :=
  match ds, srcs with
  | [], _ => Ok s
  | d :: ds', e :: srcs' => match store s d e with Ok s' => stores s' ds' srcs' | r => r end
  | _, _ => Thr
  end.
Fixpoint evals (s : st) (base : nat) (rs : list rhs) : res (st * list elem) :=
  match rs with
  | [] => Ok (s, [])
  | r :: rs' =>
      match eval s base r with
      | Ok (s1, e) =>
          match evals s1 base rs' with
          | Ok (s2, es) => Ok (s2, e :: es)
          | Thr => Thr | UB => UB | Loop => Loop
          end
      | Thr => Thr | UB => UB | Loop => Loop
      end
  end.
Fixpoint dests (s : st) (base : nat) (vs : list var) : res (list nat) :=
  match vs with
  | [] => Ok []
  | v :: vs' =>
      match dest s base v, dests s base vs' with
      | Ok d, Ok ds => Ok (d :: ds)
      | _, _ => UB
      end
  end.

(** ** Arguments *)
(** The element pushed for an argument: a bare variable is loaded as a pointer, a parameter
    by reference as its VarRefObject (compiler_expression_token_symbol.cpp:450-464). *)
Definition arg_elem (s : st) (base : nat) (r : rhs) : res (st * elem) :=
  match r with
  | RLeaf (LVar v) =>
      match getv s (slot base v) with
      | Ok (ERef j) => Ok (s, ERef j)
      | Ok _ => Ok (s, EPtr (slot base v))
      | _ => UB
      end
  | _ => eval s base r
  end.
(** vm_call.cpp:307-360: [byref] is MSK_FUNCTION_ARG_PROPERTY_BY_REF of the parameter. *)
Definition pass (s : st) (byref : bool) (e : elem) : res (st * elem) :=
  if byref then
    match e with
    | ERef j => Ok (s, ERef j)                     (* 330-332 *)
    | EPtr i => Ok (s, ERef i)                     (* 325-329 *)
    | _ => Thr                                     (* 320-323 *)
    end
  else
    match match e with EPtr i => getv s i | _ => Ok e end with     (* 335-337 *)
    | Ok e1 =>
      let e2 := match e1 with ERef j => EPtr j | _ => e1 end in    (* 344-346 *)
      match e2 with
      | EStr r =>                                                  (* 348-358 *)
          match gets s r with
          | Ok o => if konst o then let (s', n) := new_str s (txt o) in Ok (s', EStr n) else Ok (s, e2)
          | _ => UB
          end
      | _ => Ok (s, e2)
      end
    | _ => UB
    end.
Fixpoint arg_elems (s : st) (base : nat) (args : list (bool * rhs)) : res (st * list elem) :=
  match args with
  | [] => Ok (s, [])
  | (_, r) :: args' =>
      match arg_elem s base r with
      | Ok (s1, e) =>
          match arg_elems s1 base args' with
          | Ok (s2, es) => Ok (s2, e :: es)
          | Thr => Thr | UB => UB | Loop => Loop
          end
      | Thr => Thr | UB => UB | Loop => Loop
      end
  end.
Fixpoint pass_all (s : st) (args : list (bool * rhs)) (es : list elem) : res (st * list elem) :=
  match args, es with
  | (b, _) :: args', e :: es' =>
      match pass s b e with
      | Ok (s1, p) =>
          match pass_all s1 args' es' with
          | Ok (s2, ps) => Ok (s2, p :: ps)
          | Thr => Thr | UB => UB | Loop => Loop
          end
      | Thr => Thr | UB => UB | Loop => Loop
      end
  | _, _ => Ok (s, [])
  end.

(** ** Programs *)
Inductive cmd :=
| CSet (vs : list var) (rs : list rhs)
| CCall (args : list (bool * rhs)) (locals : nat) (body : list cmd).

(** A call puts the parameters and the other locals, undefined, above the variables of the
    caller (vm_script_function.cpp:63-98) and removes them at the end. *)
Definition enter (s : st) (ps : list elem) (locals : nat) : st :=
  St (vars s ++ ps ++ repeat EU locals) (strs s).
Definition leave (n : nat) (s : st) : st := St (firstn n (vars s)) (strs s).

Fixpoint exec (base : nat) (c : cmd) (s : st) {struct c} : res st :=
  match c with
  | CSet vs rs =>
      match evals s base rs with
      | Ok (s1, es) =>
          match dests s1 base vs with
          | Ok ds => stores s1 (rev ds) (rev es)
          | _ => UB
          end
      | Thr => Thr | UB => UB | Loop => Loop
      end
  | CCall args locals body =>
      match arg_elems s base args with
      | Ok (s1, es) =>
          match pass_all s1 args es with
          | Ok (s2, ps) =>
              let n := length (vars s2) in
              match
                (fix go (l : list cmd) (t : st) {struct l} : res st :=
                   match l with
                   | [] => Ok t
                   | c' :: l' => match exec n c' t with Ok t' => go l' t' | r => r end
                   end) body (enter s2 ps locals)
              with
              | Ok t => Ok (leave n t)
              | r => r
              end
          | Thr => Thr | UB => UB | Loop => Loop
          end
      | Thr => Thr | UB => UB | Loop => Loop
      end
  end.
Fixpoint run (base : nat) (l : list cmd) (s : st) : res st :=
  match l with
  | [] => Ok s
  | c :: l' => match exec base c s with Ok s' => run base l' s' | r => r end
  end.
End Run.
