(** What names should mean, stated with environments and without scopes, slots
    or tables.  A declaration is identified by its number in the order in which
    declarations are accepted. *)
From Coq Require Import ZArith List Bool Lia PeanoNat.
From Verif Require Import ScopeModel.
Import ListNotations.
Open Scope nat_scope.

(** What a declaration is: its name and, for a function, how many parameters it
    has and its number among the functions. *)
Record decl : Type := mkd { d_name : name; d_fun : option (nat * nat) }.

(** What a use refers to. *)
Inductive sacc : Type :=
| VRead (d : nat) | VWrite (d : nat) | VFn (d : nat) | VGlobal (x : name)
| VType (x : name) | VThis (k : nat).

(** A function being read: its number; how many scopes enclose it; the
    declarations in its open blocks, innermost first; all its declarations so
    far; its variables so far; whether [this] can be used; what it uses. *)
Record senv : Type := mkse {
  n_no : nat; n_base : nat; n_blocks : list (list nat); n_seen : list nat;
  n_vars : list nat; n_this : bool; n_acc : list sacc }.

(** A function that was read to its end: the variables of its outermost block
    (parameters first), all its variables, and what it uses. *)
Record sfun : Type := mksf { o_top : list nat; o_vars : list nat; o_acc : list sacc }.

(** [z_plain]: none of the forms the renumbering does not treat was used (an
    operator with one operand in [this] and the other in a variable; a constant
    of the main scope).  [z_keep]: no block with functions and without variables
    was closed, other than the bodies of loops. *)
Record sst : Type := mkst {
  z_decls : list decl; z_env : list senv; z_nfun : nat;
  z_done : list (nat * option sfun); z_plain : bool; z_keep : bool }.

Definition named (ds : list decl) (x : name) (i : nat) : bool :=
  match nth_error ds i with Some d => Z.eqb (d_name d) x | None => false end.
Definition is_var (ds : list decl) (i : nat) : bool :=
  match nth_error ds i with Some (mkd _ None) => true | _ => false end.
Definition is_fn (ds : list decl) (i : nat) : bool :=
  match nth_error ds i with Some (mkd _ (Some _)) => true | _ => false end.

(** The declaration of the nearest open block of the function that has one. *)
Fixpoint visible (ds : list decl) (x : name) (bs : list (list nat)) : option nat :=
  match bs with
  | [] => None
  | b :: r => match find (named ds x) b with
              | Some i => Some i
              | None => visible ds x r
              end
  end.

(** Declaring [x] clashes: it is visible in the function, or the declaration is
    made in the outermost block of the function and a block that ended declared
    it ([np]: for functions only those of as many parameters count). *)
Definition same_params (ds : list decl) (np : option nat) (i : nat) : bool :=
  match np, nth_error ds i with
  | Some n, Some (mkd _ (Some (m, _))) => Nat.eqb m n
  | _, _ => true
  end.
Definition clash (ds : list decl) (x : name) (np : option nat) (e : senv) : bool :=
  match visible ds x (n_blocks e) with
  | Some _ => true
  | None =>
    match n_blocks e with
    | [_] => existsb (fun i => named ds x i && same_params ds np i) (n_seen e)
    | _ => false
    end
  end.

Definition put_decl (i : nat) (l : list (list nat)) : list (list nat) :=
  match l with b :: r => (b ++ [i]) :: r | [] => [] end.

Definition set_done (l : list (nat * option sfun)) (i : nat) (v : option sfun) :=
  (i, v) :: filter (fun p => negb (Nat.eqb (fst p) i)) l.

(** A variable is declared. *)
Definition put_var (x : name) (z : sst) : sst :=
  match z_env z with
  | e :: r =>
    let i := length (z_decls z) in
    mkst (z_decls z ++ [mkd x None])
      (mkse (n_no e) (n_base e) (put_decl i (n_blocks e)) (n_seen e ++ [i])
         (n_vars e ++ [i]) (n_this e) (n_acc e) :: r)
      (z_nfun z) (z_done z) (z_plain z) (z_keep z)
  | [] => z
  end.

Definition use (l : list sacc) (z : sst) : sst :=
  match z_env z with
  | e :: r =>
    mkst (z_decls z)
      (mkse (n_no e) (n_base e) (n_blocks e) (n_seen e) (n_vars e) (n_this e)
         (n_acc e ++ l) :: r)
      (z_nfun z) (z_done z) (z_plain z) (z_keep z)
  | [] => z
  end.

Definition set_env (l : list senv) (z : sst) : sst :=
  mkst (z_decls z) l (z_nfun z) (z_done z) (z_plain z) (z_keep z).
Definition and_plain (b : bool) (z : sst) : sst :=
  mkst (z_decls z) (z_env z) (z_nfun z) (z_done z) (z_plain z && b) (z_keep z).
Definition and_keep (b : bool) (z : sst) : sst :=
  mkst (z_decls z) (z_env z) (z_nfun z) (z_done z) (z_plain z) (z_keep z && b).

Section Types.
Variable ty : name -> bool.

(** A use of [x]: a class, the nearest declaration of the function, or, in a
    function other than the main one, a global to be found later. *)
Definition meaning (x : name) (z : sst) : option sacc :=
  if ty x then Some (VType x)
  else match z_env z with
       | e :: r =>
         match visible (z_decls z) x (n_blocks e) with
         | Some i => Some (if is_fn (z_decls z) i then VFn i else VRead i)
         | None => match r with [] => None | _ => Some (VGlobal x) end
         end
       | [] => None
       end.
Definition meaning_rand (a : rand) (z : sst) : option sacc :=
  match a with
  | RVar x => meaning x z
  | RThis k => match z_env z with
               | e :: _ => if n_this e then Some (VThis k) else None
               | [] => None
               end
  end.
Definition mixed (a b : rand) : bool :=
  match a, b with
  | RVar _, RThis _ | RThis _, RVar _ => true
  | _, _ => false
  end.

Definition spec_var (x : name) (z : sst) : sst * bool :=
  match z_env z with
  | e :: _ => if ty x || clash (z_decls z) x None e then (z, false)
              else (put_var x z, true)
  | [] => (z, false)
  end.

Fixpoint spec_args (ps : list name) (z : sst) {struct ps} : sst * bool :=
  match ps with
  | [] => (z, true)
  | x :: r =>
    match z_env z with
    | e :: _ =>
      if ty x || existsb (named (z_decls z) x) (hd [] (n_blocks e)) then (z, false)
      else spec_args r (put_var x z)
    | [] => (z, false)
    end
  end.

(** A function is declared: again in the same block it replaces the previous
    one, otherwise its name must be free. *)
Definition spec_fun (x : name) (np : nat) (z : sst) : sst * option nat :=
  match z_env z with
  | e :: r =>
    match visible (z_decls z) x (n_blocks e) with
    | Some i =>
      match nth_error (z_decls z) i with
      | Some (mkd n (Some (_, f))) =>
        if existsb (Nat.eqb i) (hd [] (n_blocks e))
        then (mkst (firstn i (z_decls z) ++ mkd n (Some (np, f)) :: skipn (S i) (z_decls z))
                (z_env z) (z_nfun z) (set_done (z_done z) f None) (z_plain z) (z_keep z),
              Some f)
        else (z, None)
      | _ => (z, None)
      end
    | None =>
      if ty x || clash (z_decls z) x (Some np) e then (z, None)
      else
        let i := length (z_decls z) in
        (mkst (z_decls z ++ [mkd x (Some (np, z_nfun z))])
           (mkse (n_no e) (n_base e) (put_decl i (n_blocks e)) (n_seen e ++ [i])
              (n_vars e) (n_this e) (n_acc e) :: r)
           (S (z_nfun z)) (set_done (z_done z) (z_nfun z) None) (z_plain z) (z_keep z),
         Some (z_nfun z))
    end
  | [] => (z, None)
  end.

Definition depth (e : senv) : nat := n_base e + length (n_blocks e).

Definition spec_enter (f base : nat) (th : bool) (ps : list name) (z : sst) : sst * bool :=
  match spec_args ps (set_env (mkse f base [[]] [] [] th [] :: z_env z) z) with
  | (z', true) => (z', Nat.ltb base 10)
  | (z', false) => (z', false)
  end.

Definition spec_step (o : op) (z : sst) : sst * bool :=
  match z_env z with
  | [] => (z, false)
  | e :: r =>
    match o with
    | OVar x => spec_var x z
    | OConst x =>
      match spec_var x z with
      | (z', true) =>
        (and_plain (match r, n_blocks e with [], [_] => false | _, _ => true end)
           (use [VWrite (length (z_decls z))] z'), true)
      | (z', false) => (z', false)
      end
    | OUse x =>
      match meaning x z with
      | Some v => (use [v] z, true)
      | None => (z, false)
      end
    | OBin a b =>
      match meaning_rand a z, meaning_rand b z with
      | Some v, Some w => (and_plain (negb (mixed a b)) (use [v; w] z), true)
      | _, _ => (z, false)
      end
    | OOpen =>
      if Nat.ltb (depth e) 10
      then (set_env (mkse (n_no e) (n_base e) ([] :: n_blocks e) (n_seen e) (n_vars e)
                       (n_this e) (n_acc e) :: r) z, true)
      else (z, false)
    | OClose loop =>
      match n_blocks e with
      | b :: b' :: bs =>
        (and_keep (loop || existsb (is_var (z_decls z)) b
                   || match b with [] => true | _ => false end)
           (set_env (mkse (n_no e) (n_base e) (b' :: bs) (n_seen e) (n_vars e)
                       (n_this e) (n_acc e) :: r) z), true)
      | _ => (z, false)
      end
    | OFun x ps =>
      match spec_fun x (length ps) z with
      | (z', Some f) => spec_enter f (depth e) (n_this e) ps z'
      | (z', None) => (z', false)
      end
    | OMethod ps =>
      spec_enter (z_nfun z) 1 true ps
        (mkst (z_decls z) (z_env z) (S (z_nfun z))
           (set_done (z_done z) (z_nfun z) None) (z_plain z) (z_keep z))
    | OEnd =>
      match r, n_blocks e with
      | _ :: _, [b] =>
        (mkst (z_decls z) r (z_nfun z)
           (set_done (z_done z) (n_no e)
              (Some (mksf (filter (is_var (z_decls z)) b) (n_vars e) (n_acc e))))
           (z_plain z) (z_keep z), true)
      | _, _ => (z, false)
      end
    | OBad => (z, false)
    end
  end.

Fixpoint spec_run (l : list op) (z : sst) {struct l} : sst * bool :=
  match l with
  | [] => (z, true)
  | o :: r =>
    match spec_step o z with
    | (z', true) => spec_run r z'
    | (z', false) => (z', false)
    end
  end.

(* ------------------------------------------------------------------ *)
(** * Scripts one after the other *)

(** What remains after a script, whether it was accepted or not: the
    declarations made in the outermost block of the script. *)
Record world : Type := mkw {
  w_decls : list decl; w_top : list nat; w_main : sfun; w_nfun : nat;
  w_done : list (nat * option sfun); w_plain : bool; w_keep : bool }.

Definition first_world : world := mkw [] [] (mksf [] [] []) 1 [] true true.

Definition spec_begin (w : world) : sst :=
  mkst (w_decls w)
    [mkse 0 0 [w_top w] (w_top w) (filter (is_var (w_decls w)) (w_top w)) false []]
    (w_nfun w) (w_done w) (w_plain w) (w_keep w).

Definition spec_compile (l : list op) (w : world) : world * bool :=
  let (z, b) := spec_run l (spec_begin w) in
  let e := last (z_env z) (mkse 0 0 [[]] [] [] false []) in
  let top := last (n_blocks e) [] in
  (mkw (z_decls z) top
     (mksf (filter (is_var (z_decls z)) top) (n_vars e) (n_acc e))
     (z_nfun z) (z_done z) (z_plain z) (z_keep z),
   match z_env z with
   | [_] => match n_blocks e with [_] => b | _ => false end
   | _ => false
   end).

Fixpoint spec_session (ls : list (list op)) (w : world) {struct ls} : world * list bool :=
  match ls with
  | [] => (w, [])
  | l :: r =>
    let (w', b) := spec_compile l w in
    let (w'', bs) := spec_session r w' in (w'', b :: bs)
  end.
End Types.

(* ------------------------------------------------------------------ *)
(** * Slots *)

(** The storage an instruction touches is that of the declaration meant, when
    slot [n] of the frame belongs to the n-th declaration of [locals]. *)
Definition agrees (locals : list nat) (a : access) (v : sacc) : Prop :=
  match a, v with
  | Read n, VRead d => nth_error locals n = Some d
  | Write n, VWrite d => nth_error locals n = Some d
  | Fn i, VFn d => i = d
  | Global x, VGlobal y => x = y
  | Type_ x, VType y => x = y
  | This k, VThis k' => k = k'
  | _, _ => False
  end.

(** A compiled function is right: every variable has its own slot, the slots
    are used up, the variables of the outermost block, parameters first, are the
    first ones in order, and every instruction touches what is meant. *)
Definition faithful (f : func) (o : sfun) : Prop :=
  NoDup (fn_locals f) /\
  (forall d, In d (fn_locals f) <-> In d (o_vars o)) /\
  length (fn_locals f) = length (o_vars o) /\
  (exists rest, fn_locals f = o_top o ++ rest) /\
  Forall2 (agrees (fn_locals f)) (accesses (fn_code f)) (o_acc o).
