(** * Reading array and object literals, new, and conditions in parentheses.

    Modelled source: compiler_object_identifier, compiler_object_object, compiler_object_vector,
    compiler_object_new (src/compiler/compiler_object.cpp:78-508), compiler_sub_expression with
    an expected ending character (src/compiler/compiler_expression.cpp:24-231), and the
    conditions of if, while, do-while and switch
    (src/compiler/compiler_keyword_conditional.cpp:36-52, 190-209,
    src/compiler/compiler_keyword_loop.cpp:118-138, 250-267).

    Expressions are read by [ParseModel]; the instructions emitted for them are one unit
    [EExpr] here.  All error exits are [Thr]; [UB] is a use of the null pointer.  Line numbers
    are left out.  The parameters are those of [ParseModel], and what the compiler knows about
    types: [make w] is [None] if w is no type, [Some false] if it cannot be instantiated;
    [bare w]: a native type without constructors; [has_ctor w n]: the lookup of a native
    constructor with n arguments finds one (true for script types). *)
From Coq Require Import List ZArith Bool String.
From Verif Require Import Base StringModel LexModel ParseModel.
Import ListNotations.
Local Open Scope Z_scope.

(** What is emitted. *)
Inductive emit :=
| ENewArray | EItem                      (* NEW_ARRAY, PUSH_ARRAY_ITEM *)
| ENewObject | EKey (k : list Z) | EPair (* NEW_OBJECT, LOAD_STRING, PUSH_OBJECT_ITEM *)
| EExpr (e : popt)                       (* the code of an expression, nothing for none *)
| ENewType (w : list Z) | ELoadCtor      (* NEW_OBJECT_BY_TYPE, LOAD_CONSTRUCTOR_FUNCT *)
| ENewValue                              (* NEW_OBJECT_BY_VALUE *)
| ECtorCall (n : nat).                   (* CONSTRUCTOR_CALL *)

Section Lit.
Variable other : okind -> ptr -> res (Z * ptr).
Variable kind : literal -> option bool.
Variable known is_type : list Z -> bool.
Variable makes : pexpr -> bool.
Notation parse := (parse other kind known is_type makes).

(** compiler_object_identifier (compiler_object.cpp:78-112) and the test of the result
    (184-187).  An unclosed string returns NULL with the characters read so far: only if there
    are none, the caller stops (185); otherwise it goes on with NULL (204). *)
Definition key (s : ptr) : res (list Z * ptr) :=
  if hd0 s =? 34 then
    match string_literal s with
    | Ok r => match fst r with [] => Thr | _ => Ok r end
    | Thr => if (hd0 (adv 1 s) =? 0) || (hd0 (adv 1 s) =? 10) then Thr else UB
    | x => x
    end
  else get_name_identifier_token s.

(** compiler_object_object (compiler_object.cpp:144-239). *)
Fixpoint pairs (fuel : nat) (first : bool) (s : ptr) : res (list emit * ptr) :=
  match fuel with
  | O => Loop
  | S f =>
      if (hd0 s =? 125) || (hd0 s =? 0) then Ok ([], s)
      else
        do b <- blanks s;
        do c <- (if first then Ok b else if hd0 b =? 44 then blanks (adv 1 b) else Thr);
        do w <- is_keyword c;
        match w with
        | Some _ => Thr
        | None =>
            do k <- key c;
            do d <- blanks (snd k);
            if negb (hd0 d =? 58) then Thr
            else
              do v <- blanks (adv 1 d);
              if hd0 v =? 125 then Thr
              else
                do r <- parse v;
                do t <- pairs f false (snd r);
                Ok (EKey (fst k) :: EExpr (fst r) :: EPair :: fst t, snd t)
        end
  end.
Definition read_object (s : ptr) : res (list emit * ptr) :=
  if negb (hd0 s =? 123) then Thr
  else
    do v <- blanks (adv 1 s);
    do r <- pairs (S (List.length v)) true v;
    if hd0 (snd r) =? 125 then Ok (ENewObject :: fst r, adv 1 (snd r)) else Thr.

(** compiler_object_vector (compiler_object.cpp:241-289). *)
Fixpoint items (fuel : nat) (first : bool) (s : ptr) : res (list emit * ptr) :=
  match fuel with
  | O => Loop
  | S f =>
      if (hd0 s =? 0) || (hd0 s =? 93) then Ok ([], s)
      else
        do b <- blanks s;
        do c <- (if first then if hd0 b =? 44 then Thr else Ok b
                 else if hd0 b =? 44 then blanks (adv 1 b) else Thr);
        do r <- parse c;
        do t <- items f false (snd r);
        Ok (EExpr (fst r) :: EItem :: fst t, snd t)
  end.
Definition read_array (s : ptr) : res (list emit * ptr) :=
  do u <- blanks s;
  if negb (hd0 u =? 91) then Thr
  else
    do v <- blanks (adv 1 u);
    do r <- items (S (List.length v)) true v;
    if hd0 (snd r) =? 93 then Ok (ENewArray :: fst r, adv 1 (snd r)) else Thr.

(** compiler_sub_expression with expected ending characters: the character behind the operands
    and operators is tested (compiler_expression.cpp:144-178) before [?:] is read (191-205). *)
Definition parse_until (ends : list Z) (s : ptr) : res (popt * ptr) :=
  do u <- blanks s;
  if existsb (Z.eqb (hd0 s)) [41; 44; 93; 0; 125] then Thr
  else
    do e <- ends_here u;
    if (e : bool) then if existsb (Z.eqb (hd0 u)) ends then Ok (PNone, u) else Thr
    else
      do r <- p_toks other kind known is_type makes (Nat.pred (fuel_for s)) u;
      let '(h, tl, v) := r in
      if negb (existsb (Z.eqb (hd0 v)) ends) then Thr
      else if negb (assign_ok h tl) then Thr
      else Ok (PSome (PExpr h tl PNoTern), v).

(** The condition of if, while, do-while and switch (compiler_keyword_conditional.cpp:40-52,
    compiler_keyword_loop.cpp:119-138, 255-267), from the parenthesis. *)
Definition condition (s : ptr) : res (popt * ptr) :=
  if negb (hd0 s =? 40) then Thr else parse_until [41] (adv 1 s).

(** compiler_object_new (compiler_object.cpp:291-508). *)
Variable make : list Z -> option bool.
Variable bare : list Z -> bool.
Variable has_ctor : list Z -> nat -> bool.

(** The names between [new] and the parenthesis (322-343): the last one, and all of them. *)
Fixpoint new_names (fuel : nat) (s : ptr) : res (list Z * list Z * ptr) :=
  match fuel with
  | O => Loop
  | S f =>
      do w <- get_name_identifier_token s;
      do a <- blanks (snd w);
      if hd0 a =? 46 then
        do b <- blanks (adv 1 a);
        do r <- new_names f b;
        let '(l, e, u) := r in Ok (l, fst w ++ 46 :: e, u)
      else if hd0 a =? 40 then Ok (fst w, fst w, a)
      else Thr
  end.
(** The arguments (424-449). *)
Fixpoint new_args (fuel : nat) (s : ptr) : res (list popt * ptr) :=
  match fuel with
  | O => Loop
  | S f =>
      if hd0 s =? 41 then Ok ([], s)
      else
        do r <- parse_until [44; 41] s;
        do v <- (if hd0 (snd r) =? 44 then blanks (adv 1 (snd r)) else Ok (snd r));
        do t <- new_args f v;
        Ok (fst r :: fst t, snd t)
  end.
Definition read_new (s : ptr) : res (list emit * ptr) :=
  do a <- blanks s;
  do k <- is_keyword a;
  match k with
  | Some KwNew =>
      do b <- blanks (adv 3 a);
      do n <- new_names (S (List.length b)) b;
      let '(w, e, p) := n in
      do p1 <- blanks p;
      match make w with
      | Some false => Thr
      | Some true =>
          do v <- blanks (adv 1 p1);
          if (hd0 v =? 41) && bare w then Ok ([ENewType w], adv 1 v)
          else
            do r <- new_args (S (List.length v)) v;
            if has_ctor w (List.length (fst r))
            then Ok (ENewType w :: ELoadCtor :: map EExpr (fst r) ++ [ECtorCall (List.length (fst r))], adv 1 (snd r))
            else Thr
      | None =>
          do x <- parse e;
          do v <- blanks (adv 1 p1);
          do r <- new_args (S (List.length v)) v;
          Ok (EExpr (fst x) :: ENewValue :: map EExpr (fst r) ++ [ECtorCall (List.length (fst r))], adv 1 (snd r))
      end
  | _ => Thr
  end.
End Lit.
