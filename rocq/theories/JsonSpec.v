(** Vocabulary for the JSON properties (C56, C57). *)
From Coq Require Import List ZArith Bool.
From Verif Require Import Base FloatModel StringModel JsonModel.
Import ListNotations.
Open Scope Z_scope.

(** [a] is the end of the text [b]. *)
Definition suf (a b : list Z) : Prop := exists p, b = p ++ a.

(** ** Texts that can be read safely *)
(** No comment starts anywhere: neither // nor /* occurs. *)
Definition nocom (t : list Z) : Prop :=
  forall u, ~ suf (47 :: 47 :: u) t /\ ~ suf (47 :: 42 :: u) t.
(** Every /* is followed by a */. *)
Definition closed (t : list Z) : Prop :=
  forall u, suf (47 :: 42 :: u) t -> exists a b, u = a ++ 42 :: 47 :: b.
(** The text ends with a newline. *)
Definition ends_nl (t : list Z) : Prop := exists p, t = p ++ [10].
(** No line of the text reaches [n] bytes. *)
Definition lines_below (n : Z) (t : list Z) : Prop :=
  forall a u b, t = a ++ u ++ b -> ~ In 10 u -> ~ In 13 u -> zlen u < n.

(** Two ways to be safe: short texts whose comments are closed and which end with a newline;
    texts of any length without comments and with lines below 985 bytes. *)
Definition short_closed (t : list Z) : Prop := zlen t < 985 /\ closed t /\ ends_nl t.
Definition plain_lines (t : list Z) : Prop := nocom t /\ lines_below 985 t.

(** ** The accepted language *)
(** Blanks and comments. *)
Inductive ws : list Z -> Prop :=
| ws_nil : ws []
| ws_space w : ws w -> ws (32 :: w)
| ws_tab w : ws w -> ws (9 :: w)
| ws_nl w : ws w -> ws (10 :: w)
| ws_crnl w : ws w -> ws (13 :: 10 :: w)
| ws_line c w : ~ In 10 c -> ~ In 13 c -> ws w -> ws (47 :: 47 :: c ++ 10 :: w)
| ws_block c w : (forall a b, c <> a ++ 42 :: 47 :: b) -> ws w -> ws (47 :: 42 :: c ++ 42 :: 47 :: w).
(** Blanks behind a value: no comment right behind it. *)
Definition aft (w : list Z) : Prop := ws w /\ hd 0 w <> 47.

(** Characters that are neither blank nor start a comment. *)
Definition solid (c : Z) : Prop := c <> 32 /\ c <> 9 /\ c <> 10 /\ c <> 13 /\ c <> 47.
(** The inside of a string: on one line, a quote only behind a backslash, no backslash at
    the end. *)
Definition body_ok (s : list Z) : Prop :=
  ~ In 10 s /\ ~ In 13 s /\ (forall a b, s = a ++ 34 :: b -> exists a', a = a' ++ [92]) /\
  (forall a, s <> a ++ [92]).
(** A word that is no string, container or boolean. *)
Definition word_ok (t : list Z) : Prop :=
  t <> [] /\ zlen t < 1024 /\
  Forall (fun c => c <> 44 /\ c <> 125 /\ c <> 32 /\ c <> 9 /\ c <> 10 /\ c <> 13 /\ c <> 93 /\ c <> 47) t /\
  hd 0 t <> 34 /\ hd 0 t <> 91 /\ hd 0 t <> 123 /\
  (forall r, t <> [116; 114; 117; 101] ++ r) /\ (forall r, t <> [102; 97; 108; 115; 101] ++ r).

(** The names of a list, each where it first occurs. *)
Fixpoint names_of (l : list (list Z)) : list (list Z) :=
  match l with
  | [] => []
  | k :: r => k :: filter (fun k' => if list_eq_dec Z.eq_dec k' k then false else true) (names_of r)
  end.
(** The last value given to a name. *)
Fixpoint last_of (k : list Z) (l : list (list Z * jval)) (d : jval) : jval :=
  match l with
  | [] => d
  | (k', v) :: r => last_of k r (if list_eq_dec Z.eq_dec k' k then v else d)
  end.
(** The fields of an object text: every name once, where it first stands, with the value that
    is given to it last. *)
Definition fields_of (l : list (list Z * jval)) : list (list Z * jval) :=
  List.map (fun k => (k, last_of k l JU)) (names_of (List.map fst l)).

(** [jtext num t v]: [t] is a text of the value [v], [num] giving the numbers; a word that is
    no number stands for undefined.  A comma may stand before a closing bracket. *)
Inductive jtext (num : list Z -> option f64) : list Z -> jval -> Prop :=
| jt_true : jtext num [116; 114; 117; 101] (JB true)
| jt_false : jtext num [102; 97; 108; 115; 101] (JB false)
| jt_str s : body_ok s -> jtext num (34 :: s ++ [34]) (JS s)
| jt_num t f : word_ok t -> num t = Some f -> jtext num t (JF f)
| jt_word t : word_ok t -> num t = None -> jtext num t JU
| jt_arr0 w : ws w -> jtext num (91 :: w ++ [93]) (JA [])
| jt_arr w t l : ws w -> jitems num t l -> jtext num (91 :: w ++ t ++ [93]) (JA l)
| jt_obj0 w : ws w -> jtext num (123 :: w ++ [125]) (JO [])
| jt_obj w t l : ws w -> jfields num t l -> jtext num (123 :: w ++ t ++ [125]) (JO (fields_of l))
with jitems (num : list Z -> option f64) : list Z -> list jval -> Prop :=
| ji_one t v w : jtext num t v -> aft w -> jitems num (t ++ w) [v]
| ji_comma t v w w' : jtext num t v -> aft w -> ws w' -> jitems num (t ++ w ++ 44 :: w') [v]
| ji_cons t v w w' ts l : jtext num t v -> aft w -> ws w' -> jitems num ts l ->
    jitems num (t ++ w ++ 44 :: w' ++ ts) (v :: l)
with jfields (num : list Z -> option f64) : list Z -> list (list Z * jval) -> Prop :=
| jf_one k w1 w2 t v w : body_ok k -> ws w1 -> ws w2 -> jtext num t v -> aft w ->
    jfields num (34 :: k ++ 34 :: w1 ++ 58 :: w2 ++ t ++ w) [(k, v)]
| jf_comma k w1 w2 t v w w' : body_ok k -> ws w1 -> ws w2 -> jtext num t v -> aft w -> ws w' ->
    jfields num (34 :: k ++ 34 :: w1 ++ 58 :: w2 ++ t ++ w ++ 44 :: w') [(k, v)]
| jf_cons k w1 w2 t v w w' ts l : body_ok k -> ws w1 -> ws w2 -> jtext num t v -> aft w -> ws w' ->
    jfields num ts l -> jfields num (34 :: k ++ 34 :: w1 ++ 58 :: w2 ++ t ++ w ++ 44 :: w' ++ ts) ((k, v) :: l).

(** ** Values that survive *)
(** Strings of visible characters on one line, without quote and backslash. *)
Definition plain_str (s : list Z) : Prop :=
  Forall (fun c => c <> 10 /\ c <> 13 /\ c <> 34 /\ c <> 92) s.
(** Booleans, integers below 2^24, floats that are such an integer divided by 64, plain strings,
    arrays of these, objects of these with distinct plain names. *)
Fixpoint jsonable (v : jval) : Prop :=
  match v with
  | JU | JN => False
  | JB _ => True
  | JI z => Z.abs z < 2 ^ 24
  | JF f => exists z, Z.abs z < 2 ^ 24 /\ f = fdiv (of_int z) (of_int 64)
  | JS s => plain_str s
  | JA l => (fix all (l : list jval) : Prop := match l with [] => True | x :: r => jsonable x /\ all r end) l
  | JO l =>
    NoDup (List.map fst l) /\
    (fix all (l : list (list Z * jval)) : Prop :=
       match l with [] => True | (k, x) :: r => plain_str k /\ jsonable x /\ all r end) l
  end.
(** Equal values, a number being equal to the float that holds it. *)
Inductive same : jval -> jval -> Prop :=
| same_b b : same (JB b) (JB b)
| same_i z : same (JI z) (JF (of_int z))
| same_f f : same (JF f) (JF f)
| same_s s : same (JS s) (JS s)
| same_a l l' : Forall2 same l l' -> same (JA l) (JA l')
| same_o l l' : Forall2 (fun a b => fst a = fst b /\ same (snd a) (snd b)) l l' -> same (JO l) (JO l').
