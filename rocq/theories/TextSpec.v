(** The texts of a formula and its value, independent of reading and compiling. *)
From Coq Require Import List ZArith Bool Lia String.
From Verif Require Import Base StringModel LexModel LexSpec ParseModel ParseSpec FloatModel ExprModel VmModel ExprSpec.
Import ListNotations.
Local Open Scope Z_scope.

(** The sign of an operator in a text. *)
Definition op_of (o : bop) : operator :=
  match o with
  | O_LAND => OpLogicAnd | O_LOR => OpLogicOr
  | O_EQ => OpEqual | O_NE => OpNotEqual | O_GTE => OpGte | O_LTE => OpLte | O_GT => OpGt | O_LT => OpLt
  | O_ADD => OpAdd | O_SUB => OpSub | O_XOR => OpXor | O_MUL => OpMul | O_AND => OpAnd | O_DIV => OpDiv
  | O_MOD => OpMod | O_OR => OpOr | O_SHL => OpShl | O_SHR => OpShr | O_INST => OpInstanceof | O_IN => OpIn
  end.
Definition sign (o : bop) : list Z := spelling (op_of o).

(** An atom: a name, with a minus, a [!] or a [~] before it or not; a name counted up or down;
    a numeral with a minus or a [~] before it or not; a string; a truth value with a [!] before
    it or not; [undefined] and [null]. *)
Inductive mark1 := MNeg | MNot | MBwc.
Definition mark_text (m : mark1) : list Z := match m with MNeg => [45] | MNot => [33] | MBwc => [126] end.
Definition mark_pre (m : mark1) : preop := match m with MNeg => PreNeg | MNot => PreNot | MBwc => PreBwc end.
Definition mark_op (m : mark1) : uop := match m with MNeg => U_NEG | MNot => U_NOT | MBwc => U_BWC end.
Inductive atom :=
| NameA (m : option mark1) (w : list Z)
| CountA (post inc : bool) (w : list Z)
| NumA (m : option mark1) (v : list Z)
| StrA (v : list Z)
| TruthA (neg : bool) (b : bool)
| UndefA
| NullA.

(** A formula: operators between atoms and formulas in parentheses with a mark before them. *)
Inductive formula := Atom (a : atom) | Op (o : bop) (l r : formula) | Mark (m : mark1) (T : formula).

(** The constant with a mark before it; no integer is the negative of the least one. *)
Definition marked (m : option mark1) (k : const) : option const :=
  match m, k with
  | None, _ => Some k
  | Some MNeg, KInt z => if z =? - 2 ^ 63 then None else Some (KInt (- z))
  | Some MBwc, KInt z => Some (KInt (Z.lnot z))
  | Some MNeg, KFloat f => Some (KFloat (fopp f))
  | _, _ => None
  end.
Definition is_number (k : const) : bool := match k with KInt _ | KFloat _ => true | _ => false end.
Definition truth_word (b : bool) : list Z := if b then bytes "true" else bytes "false".

Section Texts.
(** The number of a numeral and the contents of a string constant. *)
Variable lit : literal -> option const.
Variable text : list Z -> list Z.
Variable known : list Z -> bool.
(** The variable of a name. *)
Variable at_ : list Z -> option var.

(** The constant of an atom. *)
Definition number (m : option mark1) (v : list Z) : option const :=
  match lit (LText v) with Some k => if is_number k then marked m k else None | None => None end.
Definition constant (a : atom) : option const :=
  match a with
  | NumA m v => number m v
  | StrA v => Some (KStr (text v))
  | TruthA n b => Some (KBool (xorb n b))
  | _ => None
  end.

Inductive atom_text : atom -> list Z -> Prop :=
| at_name : forall w, name w -> known w = true -> at_ w <> None -> atom_text (NameA None w) w
| at_mark : forall m b w, name w -> known w = true -> at_ w <> None -> trivia b ->
    atom_text (NameA (Some m) w) (mark_text m ++ b ++ w)
| at_post : forall inc w, name w -> known w = true -> at_ w <> None ->
    atom_text (CountA true inc w) (w ++ if inc then bytes "++" else bytes "--")
| at_before : forall inc b w, name w -> known w = true -> at_ w <> None -> trivia b ->
    atom_text (CountA false inc w) ((if inc then bytes "++" else bytes "--") ++ b ++ w)
| at_number : forall v, numeral v -> number None v <> None -> atom_text (NumA None v) v
| at_signed : forall m b v, numeral v -> number (Some m) v <> None -> trivia b ->
    atom_text (NumA (Some m) v) (mark_text m ++ b ++ v)
| at_string : forall v, string_body v -> atom_text (StrA v) (34 :: v ++ [34])
| at_truth : forall b w, same_letters w (truth_word b) -> atom_text (TruthA false b) w
| at_untruth : forall b b1 w, same_letters w (truth_word b) -> trivia b1 -> atom_text (TruthA true b) (33 :: b1 ++ w)
| at_undef : atom_text UndefA (bytes "undefined")
| at_null : atom_text NullA (bytes "null").

(** [text_at l T t]: [t] is a text of the operator tree [T] in which operators that bind less
    than [l] stand in parentheses.  Operators group to the left; parentheses, blanks and
    comments may stand everywhere, and a mark before what is in parentheses. *)
Inductive text_at : nat -> formula -> list Z -> Prop :=
| t_atom : forall l a t, atom_text a t -> text_at l (Atom a) t
| t_paren : forall l T b1 t b2, text_at 0 T t -> trivia b1 -> trivia b2 -> text_at l T (40 :: b1 ++ t ++ b2 ++ [41])
| t_mark : forall l m b0 T b1 t b2, text_at 0 T t -> trivia b0 -> trivia b1 -> trivia b2 ->
    text_at l (Mark m T) (mark_text m ++ b0 ++ 40 :: b1 ++ t ++ b2 ++ [41])
| t_node : forall l o L R t1 b1 b2 t2, (l <= binds o)%nat -> o <> O_INST ->
    text_at (binds o) L t1 -> text_at (S (binds o)) R t2 -> trivia b1 -> trivia b2 ->
    glue (op_of o) b1 (b2 ++ t2) ->
    text_at l (Op o L R) (t1 ++ b1 ++ sign o ++ b2 ++ t2).

(** The operand to the left of an operator other than [&&] and [||] is no [&&] or [||]; two
    constants on both sides of an operator are put together to a constant, and rightly so:
    [fold o k1 k2] is that constant. *)
Definition top_logic (T : formula) : bool := match T with Op o _ _ => is_logic o | _ => false end.
Section Safe.
Variable fold : bop -> const -> const -> option const.
Fixpoint whole (T : formula) : option const :=
  match T with
  | Atom a => constant a
  | Mark _ _ => None
  | Op o L R =>
      if is_logic o then None else
      match whole L, whole R with Some k1, Some k2 => fold o k1 k2 | _, _ => None end
  end.
Fixpoint safe (T : formula) : Prop :=
  match T with
  | Atom _ => True
  | Mark _ T => safe T
  | Op o L R => safe L /\ safe R /\
      (is_logic o = false -> top_logic L = false /\
        forall k1 k2, whole L = Some k1 -> whole R = Some k2 -> fold o k1 k2 <> None)
  end.
End Safe.

(** The value of a formula, for any behaviour of values. *)
Section Value.
Variable S : Sem.
Definition name_value (w : list Z) : den S := fun wd =>
  match at_ w with Some x => EOk (vget S wd x) wd | None => EErr wd end.
Definition atom_value (a : atom) : den S := fun wd =>
  match a with
  | NameA None w => name_value w wd
  | NameA (Some m) w => ebind (name_value w wd) (fun v w1 => unop S (mark_op m) v w1)
  | CountA post inc w => match at_ w with Some x => incdec S post inc (lvar S x) wd | None => EErr wd end
  | UndefA => EOk (undefv S) wd
  | NullA => EOk (nullv S) wd
  | _ => match constant a with Some k => EOk (kval S k) wd | None => EErr wd end
  end.
Fixpoint value (T : formula) : den S := fun wd =>
  match T with
  | Atom a => atom_value a wd
  | Mark m T => ebind (value T wd) (fun v w1 => unop S (mark_op m) v w1)
  | Op o L R => eval_tree S (Node o (Leaf (value L, None)) (Leaf (value R, None))) wd
  end.
End Value.
End Texts.
