(** Statements about texts, independent of the scanning functions. *)
From Coq Require Import List ZArith Bool Lia String.
From Verif Require Import Base StringModel LexModel.
Import ListNotations.
Local Open Scope Z_scope.

(** [l] contains [p] as a contiguous part. *)
Definition contains (p l : list Z) : Prop := exists a b, l = a ++ p ++ b.

Definition newlines (l : list Z) : Z := zlen (filter (Z.eqb 10) l).

(** Text without meaning: spaces, tabs, line ends, comments. *)
Inductive trivia : list Z -> Prop :=
| tr_nil : trivia []
| tr_blank : forall c t, c = 32 \/ c = 9 \/ c = 10 -> trivia t -> trivia (c :: t)
| tr_crlf : forall t, trivia t -> trivia (13 :: 10 :: t)
| tr_line : forall b t, ~ In 10 b -> trivia t -> trivia (bytes "//" ++ b ++ 10 :: t)
| tr_block : forall b t, ~ contains (bytes "*/") b ->
    trivia t -> trivia (bytes "/*" ++ b ++ bytes "*/" ++ t).

(** A comment running to the end of the text. *)
Definition open_line (l : list Z) : Prop := exists b, l = bytes "//" ++ b /\ ~ In 10 b.
Definition open_block (l : list Z) : Prop := exists b, l = bytes "/*" ++ b /\ ~ contains (bytes "*/") b.

(** The text starts with something that is not trivia. *)
Definition significant (t : list Z) : Prop :=
  ~ (exists c r, t = c :: r /\ (c = 32 \/ c = 9 \/ c = 10)) /\
  ~ (exists r, t = 13 :: 10 :: r) /\
  ~ (exists r, t = bytes "//" ++ r) /\
  ~ (exists r, t = bytes "/*" ++ r).

(** Every carriage return is followed by a new line. *)
Definition no_lone_cr (t : list Z) : Prop :=
  forall a b, t = a ++ 13 :: b -> exists b', b = 10 :: b'.

(** [w] is the longest element of [ws] that [t] starts with. *)
Definition starts_with (t w : list Z) : Prop := exists r, t = w ++ r.
Definition longest_in (ws : list (list Z)) (t w : list Z) : Prop :=
  In w ws /\ starts_with t w /\
  (forall w', In w' ws -> starts_with t w' -> (List.length w' <= List.length w)%nat).

(** The operators written with punctuation, and the two increments. *)
Definition punctuation : list operator :=
  [OpAssign; OpAssignAdd; OpAssignSub; OpAssignMul; OpAssignDiv; OpAssignMod;
   OpAssignXor; OpAssignAnd; OpAssignOr; OpAssignShl; OpAssignShr;
   OpTernaryIf; OpTernaryElse; OpLogicAnd; OpLogicOr;
   OpEqual; OpNotEqual; OpGte; OpLte; OpGt; OpLt;
   OpAdd; OpSub; OpXor; OpMul; OpAnd; OpDiv; OpMod; OpOr; OpShl; OpShr].
Definition language : list (list Z) := bytes "++" :: bytes "--" :: map spelling punctuation.

(** Numbers as texts. *)
Definition all (f : Z -> bool) (l : list Z) : Prop := Forall (fun c => f c = true) l.
Definition hex_digit (c : Z) : bool := is_digit c || is_hex_letter c.
Inductive decimal : list Z -> Prop :=
| d_int : forall a, all is_digit a -> a <> [] -> decimal a
| d_frac : forall a b, all is_digit a -> all is_digit b -> decimal (a ++ 46 :: b)
| d_exp : forall a b e sg x, all is_digit a -> all is_digit b -> b <> [] -> (e = 101 \/ e = 69) ->
    (sg = [] \/ sg = [43] \/ sg = [45]) -> all is_digit x -> x <> [] ->
    decimal (a ++ 46 :: b ++ e :: sg ++ x).
Inductive hexadecimal : list Z -> Prop :=
| h_hex : forall c a, (c = 88 \/ c = 120) -> all hex_digit a -> a <> [] -> hexadecimal (48 :: c :: a).
Inductive binary : list Z -> Prop :=
| b_bin : forall a, all (fun c => (c =? 48) || (c =? 49)) a -> a <> [] -> binary (a ++ [98]).

(** Characters that may follow a number or a word: the end of the text, blanks,
    separators, and the first characters of operators and of a string. *)
Definition ender : list Z :=
  [0; 32; 9; 10; 13] ++ bytes "(){}[].,;:?=+-*/%^&|<>""".
Definition ends_token (t : list Z) : Prop :=
  In (hd 0 t) ender \/ exists r, t = 33 :: 61 :: r.

(** A string body: no line end, every quote follows a backslash, the last
    character is no backslash. *)
Definition string_body (b : list Z) : Prop :=
  ~ In 10 b /\
  (forall x y, b = x ++ 34 :: y -> exists x', x = x' ++ [92]) /\
  (forall x, b <> x ++ [92]).

(** The same where a backslash takes the following character with it, whatever it
    is: the reading of String::unescape. *)
Inductive escaped_body : list Z -> Prop :=
| e_nil : escaped_body []
| e_plain : forall c b, c <> 34 -> c <> 92 -> c <> 10 -> escaped_body b -> escaped_body (c :: b)
| e_esc : forall c b, c <> 10 -> escaped_body b -> escaped_body (92 :: c :: b).
