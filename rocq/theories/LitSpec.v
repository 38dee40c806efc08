(** The texts of array literals, object literals and new, and what they stand for; independent
    of how they are read. *)
From Coq Require Import List ZArith Bool String.
From Verif Require Import Base StringModel LexModel LexSpec ParseModel ParseSpec LitModel.
Import ListNotations.
Local Open Scope Z_scope.

(** The code of a literal: the container, then each element and its storing, in order. *)
Definition array_code (es : list pexpr) : list emit :=
  ENewArray :: flat_map (fun e => [EExpr (PSome e); EItem]) es.
Definition object_code (ps : list (list Z * pexpr)) : list emit :=
  ENewObject :: flat_map (fun p => [EKey (fst p); EExpr (PSome (snd p)); EPair]) ps.
(** The code of new T(...): the object, the constructor, the arguments in order, the call. *)
Definition new_code (w : list Z) (es : list pexpr) : list emit :=
  ENewType w :: ELoadCtor :: map (fun e => EExpr (PSome e)) es ++ [ECtorCall (List.length es)].

(** No conditional outside of parentheses. *)
Definition plain_expr (e : pexpr) : Prop := match e with PExpr _ _ PNoTern => True | _ => False end.

(** A key: a word that is no keyword, or a string with at least one character. *)
Definition key_text (k t : list Z) : Prop :=
  (word k /\ (forall kw, k <> kw_spelling kw) /\ t = k) \/ (string_body k /\ k <> [] /\ t = 34 :: k ++ [34]).
(** The same, with keywords. *)
Definition any_key (k t : list Z) : Prop := (word k /\ t = k) \/ (string_body k /\ k <> [] /\ t = 34 :: k ++ [34]).

Section Texts.
(** [keyed k t]: [t] is a text of the key [k]; [text e t]: [t] is a text of [e]. *)
Variable keyed : list Z -> list Z -> Prop.
Variable text : pexpr -> list Z -> Prop.
Inductive more_items : list pexpr -> list Z -> Prop :=
| i_nil : more_items [] []
| i_cons : forall e es b1 t b2 m, trivia b1 -> text e t -> trivia b2 -> more_items es m ->
    more_items (e :: es) (44 :: b1 ++ t ++ b2 ++ m).
Inductive array_text : list pexpr -> list Z -> Prop :=
| a_empty : forall b, trivia b -> array_text [] (91 :: b ++ [93])
| a_items : forall e es b1 t b2 m, trivia b1 -> text e t -> trivia b2 -> more_items es m ->
    array_text (e :: es) (91 :: b1 ++ t ++ b2 ++ m ++ [93]).

Inductive pair_text : list Z * pexpr -> list Z -> Prop :=
| p_pair : forall k kt b1 b2 e t b3, keyed k kt -> trivia b1 -> trivia b2 -> text e t -> trivia b3 ->
    pair_text (k, e) (kt ++ b1 ++ 58 :: b2 ++ t ++ b3).
Inductive more_pairs : list (list Z * pexpr) -> list Z -> Prop :=
| q_nil : more_pairs [] []
| q_cons : forall p ps b t m, trivia b -> pair_text p t -> more_pairs ps m -> more_pairs (p :: ps) (44 :: b ++ t ++ m).
Inductive object_text : list (list Z * pexpr) -> list Z -> Prop :=
| o_empty : forall b, trivia b -> object_text [] (123 :: b ++ [125])
| o_pairs : forall p ps b t m, trivia b -> pair_text p t -> more_pairs ps m -> object_text (p :: ps) (123 :: b ++ t ++ m ++ [125]).

(** Arguments up to the parenthesis; a comma may stand behind the last one. *)
Inductive arg_text : list pexpr -> list Z -> Prop :=
| g_none : arg_text [] []
| g_last : forall e t b, text e t -> plain_expr e -> trivia b -> arg_text [e] (t ++ b)
| g_cons : forall e es t b1 b2 m, text e t -> plain_expr e -> trivia b1 -> trivia b2 -> arg_text es m ->
    arg_text (e :: es) (t ++ b1 ++ 44 :: b2 ++ m).
End Texts.

(** Names joined with dots. *)
Inductive dotted : list Z -> list Z -> Prop :=
| d_one : forall w, word w -> dotted w w
| d_more : forall w b1 b2 l t, word w -> trivia b1 -> trivia b2 -> dotted l t -> dotted l (w ++ b1 ++ 46 :: b2 ++ t).

(** ** Running the code of a literal *)
Section Run.
(** Any evaluation of expressions that may fail and change the world. *)
Variables V W : Type.
Variable ev : pexpr -> W -> option (V * W).
(** A container in the making is on the stack below the value; [BObj] maps keys to values,
    a repeated key keeps its place. *)
Inductive built := BVal (v : V) | BKey (k : list Z) | BArr (vs : list V) | BObj (kv : list (list Z * V)).
Fixpoint put (k : list Z) (v : V) (kv : list (list Z * V)) : list (list Z * V) :=
  match kv with
  | [] => [(k, v)]
  | (k', v') :: kv' => if list_eqb k' k then (k, v) :: kv' else (k', v') :: put k v kv'
  end.
Fixpoint run (c : list emit) (s : list built) (w : W) : option (list built * W) :=
  match c with
  | [] => Some (s, w)
  | i :: c' =>
      match i, s with
      | ENewArray, _ => run c' (BArr [] :: s) w
      | ENewObject, _ => run c' (BObj [] :: s) w
      | EKey k, _ => run c' (BKey k :: s) w
      | EExpr (PSome e), _ => match ev e w with Some (v, w1) => run c' (BVal v :: s) w1 | None => None end
      | EItem, BVal v :: BArr vs :: s' => run c' (BArr (vs ++ [v]) :: s') w
      | EPair, BVal v :: BKey k :: BObj kv :: s' => run c' (BObj (put k v kv) :: s') w
      | _, _ => None
      end
  end.
(** The values of expressions, one after the other. *)
Fixpoint evals (es : list pexpr) (w : W) : option (list V * W) :=
  match es with
  | [] => Some ([], w)
  | e :: es' =>
      match ev e w with
      | Some (v, w1) => match evals es' w1 with Some (vs, w2) => Some (v :: vs, w2) | None => None end
      | None => None
      end
  end.
(** What is found under a key. *)
Fixpoint find_key (k : list Z) (kv : list (list Z * V)) : option V :=
  match kv with [] => None | (k', v) :: kv' => if list_eqb k' k then Some v else find_key k kv' end.
(** The last pair with a key decides. *)
Fixpoint last_value (k : list Z) (ks : list (list Z)) (vs : list V) : option V :=
  match ks, vs with
  | k' :: ks', v :: vs' => match last_value k ks' vs' with Some x => Some x | None => if list_eqb k' k then Some v else None end
  | _, _ => None
  end.
End Run.
