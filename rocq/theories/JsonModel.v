(** JSON: module/JsonDeserializeModule.cpp, module/JsonSerializeModule.cpp,
    module/JsonModule.cpp and base/Float.cpp.

    Texts are C strings.  A pointer into the text is the list of the bytes from there to the
    terminating NUL, so [*p] is [hd 0 p]; a step of the pointer past the NUL, or a read behind
    it, is [UB].  [Thr] stands for a reported error (the functions return NULL after
    json_deserialize_error, and JSON::deserialize then sets a run-time error).  The line
    counter is left out, it only occurs in messages.  Values are trees: a container being
    filled in place is returned instead. *)
From Coq Require Import List ZArith Bool.
From Verif Require Import Base FloatModel StringModel IntegerModel.
Import ListNotations.
Open Scope Z_scope.

(** ** Numbers as text *)

(** Digits of a text, the value they write after [v], how many there are, and what follows. *)
Fixpoint digs (v : Z) (n : nat) (s : list Z) : Z * nat * list Z :=
  match s with
  | c :: r => if is_digit c then digs (10 * v + (c - 48)) (S n) r else (v, n, s)
  | [] => (v, n, [])
  end.

(** The texts [-]digits and [-]digits.digits with at most six digits behind the point:
    sign, the digits as one number, how many of them are behind the point. *)
Definition plain (t : list Z) : option (bool * Z * nat) :=
  let '(neg, u) := match t with c :: r => if c =? 45 then (true, r) else (false, t) | [] => (false, t) end in
  let '(v, n, r) := digs 0 0 u in
  match n with
  | O => None
  | _ =>
    match r with
    | [] => Some (neg, v, O)
    | c :: r' =>
      if c =? 46 then
        let '(w, k, e) := digs v 0 r' in
        match e with
        | [] => if (1 <=? Z.of_nat k) && (Z.of_nat k <=? 6) then Some (neg, w, k) else None
        | _ => None
        end
      else None
    end
  end.

(** The binary32 number nearest to [(-1)^neg * n / d], ties to even. *)
Definition near32 (neg : bool) (n d : Z) : spec_float :=
  match n, d with
  | Zpos p, Zpos q =>
    let '(m, e, l) := SFdiv_core_binary 24 128 (Zpos p) 0 (Zpos q) 0 in
    binary_round_aux 24 128 neg m e l
  | _, _ => S754_zero neg
  end.
(** Conversion of a [float] to a [double]. *)
Definition widen (f : spec_float) : f64 :=
  match f with
  | S754_finite s m e => binary_normalize fprec femax (if s then Zneg m else Zpos m) e s
  | _ => f
  end.
(** Float.cpp:10-30 (Float::parse).  For a plain text strtof is the nearest binary32 number;
    infinity is refused.  [other] stands for strtof and the tests after it on every other text
    (exponents, hexadecimal, "inf", more digits, text that is no number, ...). *)
Definition fparse (other : list Z -> option f64) (t : list Z) : option f64 :=
  match plain t with
  | Some (neg, v, k) =>
    match near32 neg v (10 ^ Z.of_nat k) with
    | S754_infinity _ => None
    | f => Some (widen f)
    end
  | None => other t
  end.

(** Decimal digits of a number, last digit first. *)
Fixpoint rdigits (fuel : nat) (n : Z) : list Z :=
  match fuel with
  | O => []
  | S f => if n =? 0 then [] else (n mod 10 + 48) :: rdigits f (n / 10)
  end.
(** Decimal digits of [n >= 0], as printf writes them. *)
Definition udec (n : Z) : list Z :=
  if n <=? 0 then [48] else rev (rdigits (S (Z.to_nat (Z.log2 n))) n).
(** Exactly [k] decimal digits. *)
Fixpoint kdec (k : nat) (n : Z) : list Z :=
  match k with O => [] | S k' => kdec k' (n / 10) ++ [n mod 10 + 48] end.
(** [m * 2^e] in millionths, rounded to the nearest, ties to even. *)
Definition micros (m : positive) (e : Z) : Z :=
  if 0 <=? e then Zpos m * 2 ^ e * 1000000
  else
    let d := 2 ^ (- e) in
    let q := Zpos m * 1000000 / d in
    let r := Zpos m * 1000000 mod d in
    if 2 * r <? d then q else if d <? 2 * r then q + 1 else if Z.even q then q else q + 1.
(** Float.cpp:32-39 (Float::toString): sprintf "%f" of the C library. *)
Definition ftext (f : f64) : list Z :=
  match f with
  | S754_zero s => (if s then [45] else []) ++ [48; 46; 48; 48; 48; 48; 48; 48]
  | S754_infinity s => (if s then [45] else []) ++ [105; 110; 102]
  | S754_nan => [110; 97; 110]
  | S754_finite s m e =>
    let n := micros m e in
    (if s then [45] else []) ++ udec (n / 1000000) ++ [46] ++ kdec 6 (n mod 1000000)
  end.

(** ** Values *)
(** Undefined, null, booleans, integers, floats, strings, arrays and plain objects; the fields
    of an object stand in the order its map is iterated. *)
Inductive jval : Type :=
| JU | JN | JB (b : bool) | JI (z : Z) | JF (f : f64) | JS (s : list Z)
| JA (l : list jval) | JO (l : list (list Z * jval)).

Definition leqb (a b : list Z) : bool := if list_eq_dec Z.eq_dec a b then true else false.
(** ObjectScriptObject.cpp:57-87 (setStackElementByKeyName) followed by the value: a name
    already there keeps its place.  Plain objects have no built-in fields. *)
Fixpoint upsert (k : list Z) (v : jval) (l : list (list Z * jval)) : list (list Z * jval) :=
  match l with
  | [] => [(k, v)]
  | (k', v') :: r => if leqb k k' then (k', v) :: r else (k', v') :: upsert k v r
  end.

(** ** Reading *)

(** 31-37, 39-45, 47-53 *)
Definition is_single (s : list Z) : bool := (hd 0 s =? 47) && (hd 0 (tl s) =? 47).
Definition is_start (s : list Z) : bool := (hd 0 s =? 47) && (hd 0 (tl s) =? 42).
Definition is_end (s : list Z) : bool := (hd 0 s =? 42) && (hd 0 (tl s) =? 47).

(** 55-67 *)
Fixpoint adv_char (c : Z) (s : list Z) : list Z :=
  match s with
  | [] => []
  | x :: r => if x =? 10 then s else if x =? 13 then r else if x =? c then s else adv_char c r
  end.

(** Skips the byte [c] if it is there. *)
Definition skip1 (c : Z) (s : list Z) : list Z :=
  match s with x :: r => if x =? c then r else s | [] => [] end.

(** 73-81, the loop of advance_to_end_comment: line 80 reads the byte behind the pointer. *)
Fixpoint to_end (fuel : nat) (s : list Z) : res (list Z) :=
  match fuel with
  | O => Loop
  | S f =>
    if is_end s then Ok s
    else match s with
         | [] => Ok []
         | _ :: _ =>
           match skip1 13 (skip1 10 (adv_char 42 s)) with
           | [] => UB
           | x :: r => to_end f (if hd 0 r =? 47 then x :: r else r)
           end
         end
  end.
(** 69-85 and the step over the end mark at 101-103 and 128-129. *)
Definition end_comment (s : list Z) : res (list Z) :=
  do q <- to_end (S (length s)) (tl (tl s));
  Ok (if is_end q then tl (tl q) else q).

(** 92 *)
Fixpoint spaces (s : list Z) : list Z :=
  match s with c :: r => if (c =? 32) || (c =? 9) then spaces r else s | [] => [] end.

(** 87-117 *)
Fixpoint blanks_f (fuel : nat) (s : list Z) : res (list Z) :=
  match fuel with
  | O => Loop
  | S f =>
    let s1 := spaces s in
    let rest (again : bool) (q : list Z) :=
      let q' := skip1 13 q in
      if hd 0 q' =? 10 then blanks_f f (tl q') else if again then blanks_f f q' else Ok q' in
    if is_single s1 then rest false (adv_char 10 s1)
    else if is_start s1 then do q <- end_comment s1; rest true q
    else rest false s1
  end.
Definition blanks (s : list Z) : res (list Z) := blanks_f (S (length s)) s.

(** 18-27: , } space tab newline return ] *)
Definition endchar (c : Z) : bool :=
  (c =? 44) || (c =? 125) || (c =? 32) || (c =? 9) || (c =? 10) || (c =? 13) || (c =? 93).

(** 119-145: line 142 steps on, also when a comment ended at the NUL. *)
Fixpoint to_tok (fuel : nat) (s : list Z) : res (list Z) :=
  match fuel with
  | O => Loop
  | S f =>
    match s with
    | [] => Ok []
    | _ :: _ =>
      do s1 <- (if is_start s then end_comment s else Ok s);
      let s2 := if is_single s1 then adv_char 10 s1 else s1 in
      match s2 with
      | [] => UB
      | c :: r => if endchar c then Ok s2 else to_tok f r
      end
    end
  end.

(** 182-184: the characters of a string, and where the scan stopped. *)
Fixpoint str_body (prev : Z) (s : list Z) : list Z * list Z :=
  match s with
  | [] => ([], [])
  | c :: r =>
    if (c =? 10) || (c =? 13) || ((c =? 34) && negb (prev =? 92)) then ([], s)
    else let '(b, t) := str_body c r in (c :: b, t)
  end.
(** 173-200 *)
Definition read_string (s : list Z) : res (list Z * list Z) :=
  if hd 0 s =? 34 then
    let '(b, t) := str_body 34 (tl s) in
    if hd 0 t =? 34 then do q <- blanks (tl t); Ok (b, q) else Thr
  else Thr.

Definition prefix (p s : list Z) : bool := leqb (firstn (length p) s) p.

(** The buffer of line 243, and the room the text of line 377 leaves for the name in the
    buffer of line 150: 39 other characters and the NUL. *)
Definition NUMBUF : Z := 1024.
Definition KEYBUF : Z := 985.

(** 202-268.  A token that does not fit the buffer is written over its end; one of exactly
    1024 bytes leaves no NUL.  A token Float::parse refuses leaves the element undefined. *)
Definition j_scalar (num : list Z -> option f64) (s : list Z) : res (jval * list Z) :=
  if hd 0 s =? 34 then do x <- read_string s; Ok (JS (fst x), snd x)
  else if prefix [116; 114; 117; 101] s then Ok (JB true, skipn 4 s)
  else if prefix [102; 97; 108; 115; 101] s then Ok (JB false, skipn 5 s)
  else
    do e <- to_tok (S (length s)) s;
    let n := (length s - length e)%nat in
    match n with
    | O => Thr
    | _ =>
      if NUMBUF <=? Z.of_nat n then UB
      else Ok (match num (firstn n s) with Some f => JF f | None => JU end, e)
    end.

(** 409-425, 270-330 ([j_items]: the do-while at 309-326) and 332-407 ([j_fields]: 369-403).
    The second eval_ignore_blanks at 282 and 339 stands at the bracket and does nothing. *)
Fixpoint j_val (num : list Z -> option f64) (fuel : nat) (s : list Z) {struct fuel} : res (jval * list Z) :=
  match fuel with
  | O => Loop
  | S f =>
    do s1 <- blanks s;
    if hd 0 s1 =? 91 then
      do s2 <- blanks (tl s1);
      if hd 0 s2 =? 93 then Ok (JA [], tl s2) else j_items num f s2 []
    else if hd 0 s1 =? 123 then
      do s2 <- blanks (tl s1);
      if hd 0 s2 =? 125 then Ok (JO [], tl s2) else j_fields num f s2 []
    else j_scalar num s1
  end
with j_items (num : list Z -> option f64) (fuel : nat) (s : list Z) (acc : list jval) {struct fuel} : res (jval * list Z) :=
  match fuel with
  | O => Loop
  | S f =>
    do x <- j_val num f s;
    do s2 <- blanks (snd x);
    if hd 0 s2 =? 44 then
      do s3 <- blanks (tl s2);
      if hd 0 s3 =? 93 then Ok (JA (acc ++ [fst x]), tl s3) else j_items num f s3 (acc ++ [fst x])
    else if hd 0 s2 =? 93 then Ok (JA (acc ++ [fst x]), tl s2)
    else Thr
  end
with j_fields (num : list Z -> option f64) (fuel : nat) (s : list Z) (acc : list (list Z * jval)) {struct fuel} : res (jval * list Z) :=
  match fuel with
  | O => Loop
  | S f =>
    do k <- read_string s;
    if hd 0 (snd k) =? 58 then
      do s1 <- blanks (tl (snd k));
      do x <- j_val num f s1;
      do s2 <- blanks (snd x);
      let acc' := upsert (fst k) (fst x) acc in
      if hd 0 s2 =? 44 then
        do s3 <- blanks (tl s2);
        if hd 0 s3 =? 125 then Ok (JO acc', tl s3) else j_fields num f s3 acc'
      else if hd 0 s2 =? 125 then Ok (JO acc', tl s2)
      else Thr
    else if KEYBUF <=? zlen (fst k) then UB else Thr
  end.

(** json::deserialize on a whole text: what follows the value is not looked at. *)
Definition j_parse (num : list Z -> option f64) (t : list Z) : res jval :=
  do x <- j_val num (2 * length t + 2) t; Ok (fst x).

(** JsonModule.cpp:15-38: the text is unescaped first. *)
Definition json_deserialize (other : list Z -> option f64) (s : cstring) : res jval :=
  do u <- s_unescape s;
  do t <- ofo (cstr (cchars u) 0);
  j_parse (fparse other) t.

(** ** Writing *)

(** ScriptEngine.cpp:400-401 with the empty format. *)
Definition itext (z : Z) : res (list Z) :=
  do f <- s_lit []; do s <- z_toString z f; ofo (cstr (cchars s) 0).

(** JsonSerializeModule.cpp:206-267, 24-52 and 54-204 for plain objects (no member properties,
    no functions).  [fm]: _is_formatted; [id]: _ident; undefined is written as the strict
    format wants it. *)
Fixpoint ser (fm : bool) (id : nat) (v : jval) {struct v} : res (list Z) :=
  match v with
  | JU | JN => Ok [110; 117; 108; 108]
  | JB b => Ok (if b then [116; 114; 117; 101] else [102; 97; 108; 115; 101])
  | JI z => itext z
  | JF f => Ok (ftext f)
  | JS s => Ok ([34] ++ s ++ [34])
  | JA l =>
    do t <- (fix items (first : bool) (l : list jval) : res (list Z) :=
               match l with
               | [] => Ok []
               | x :: r =>
                 do a <- ser fm id x; do b <- items false r;
                 Ok ((if first then [] else [44]) ++ a ++ b)
               end) true l;
    Ok ([91] ++ t ++ [93])
  | JO l =>
    do t <- (fix fields (first : bool) (l : list (list Z * jval)) : res (list Z) :=
               match l with
               | [] => Ok []
               | (k, x) :: r =>
                 do a <- ser fm (S id) x; do b <- fields false r;
                 Ok ((if fm then 10 :: repeat 9 (S id) else []) ++ (if first then [] else [44])
                     ++ [34] ++ k ++ [34; 58] ++ a ++ b)
               end) true l;
    Ok ([123] ++ t ++ (if fm then 10 :: repeat 9 id else []) ++ [125])
  end.
(** JsonModule.cpp:40-50: the parameter named [minimized] is passed on as _is_formatted;
    without it the text is not formatted. *)
Definition json_serialize (minimized : bool) (v : jval) : res (list Z) := ser minimized 0 v.
