(** The written form of an expression, independent of the reading functions. *)
From Coq Require Import List ZArith Bool Lia String.
From Verif Require Import Base StringModel LexModel LexSpec ParseModel.
Import ListNotations.
Local Open Scope Z_scope.

(** ** Words *)
Definition word (w : list Z) : Prop :=
  exists c w', w = c :: w' /\ is_alpha_ c = true /\ all is_alnum_ w'.
(** The same letters, capital or not. *)
Definition same_letters (w v : list Z) : Prop :=
  Forall2 (fun a b => (a = b /\ ~ 65 <= a <= 90) \/ (65 <= a <= 90 /\ b = a + 32)) w v.
(** The words that stand for constants: true and false in any capitals, null, undefined. *)
Definition truth (w : list Z) : Prop := same_letters w (bytes "true") \/ same_letters w (bytes "false").
Definition nothing (w : list Z) : Prop := w = bytes "undefined" \/ w = bytes "null".
(** A name: a word that has no meaning in the language. *)
Definition name (w : list Z) : Prop :=
  word w /\ (forall k, w <> kw_spelling k) /\ ~ truth w /\ ~ nothing w /\
  w <> bytes "super" /\ w <> bytes "typeof" /\ w <> bytes "in" /\ w <> bytes "instanceof".
(** A number. *)
Definition numeral (v : list Z) : Prop := decimal v \/ hexadecimal v \/ binary v.

(** ** Operators *)
Definition assignment (o : operator) : Prop :=
  In o [OpAssign; OpAssignAdd; OpAssignSub; OpAssignMul; OpAssignDiv; OpAssignMod;
        OpAssignXor; OpAssignAnd; OpAssignOr; OpAssignShl; OpAssignShr].
Definition word_operator (o : operator) : Prop := o = OpInstanceof \/ o = OpIn.
Definition line_blank (c : Z) : Prop := c = 32 \/ c = 10 \/ c = 13.
(** What may stand right before and right after an operator: a sign is not repeated, no
    comment touches [/] and [*], words are surrounded by blanks. *)
Definition glue (o : operator) (before after : list Z) : Prop :=
  (o = OpAdd -> hd 0 after <> 43) /\ (o = OpSub -> hd 0 after <> 45) /\
  (o = OpDiv \/ o = OpMul -> hd 0 after <> 47) /\
  (word_operator o -> before <> [] /\ line_blank (hd 0 after)).

(** ** Operands *)
Inductive sort := SInt | SFloat | STruth | SNothing | SString | SName | SParen | SContainer | SNew.
(** A prefix and the blanks after it. *)
Definition prefix (p : option preop) (t : list Z) : Prop :=
  match p with
  | None => t = []
  | Some q => q <> PreInvalid /\ exists b, trivia b /\ t = pre_spelling q ++ b /\ (q = PreTypeof -> line_blank (hd 0 b))
  end.
Definition postfix (p : option bool) : list Z :=
  match p with None => [] | Some true => bytes "++" | Some false => bytes "--" end.
(** The prefixes of each sort of operands, and the operands that may be counted up and down. *)
Definition fits (s : sort) (pre : option preop) (post : option bool) : Prop :=
  (match post with None => True | Some _ => s = SName /\ In pre [None; Some PreNeg; Some PreBwc] end) /\
  match s with
  | SInt => In pre [None; Some PrePos; Some PreTypeof; Some PreNeg; Some PreBwc]
  | SFloat => In pre [None; Some PrePos; Some PreTypeof; Some PreNeg]
  | STruth => In pre [None; Some PrePos; Some PreTypeof; Some PreNot]
  | SParen => In pre [None; Some PrePos; Some PreTypeof; Some PreNeg; Some PreBwc; Some PreNot]
  | SName => True
  | SNothing | SString | SContainer | SNew => In pre [None; Some PrePos; Some PreTypeof]
  end.
Definition first_dot (acs : paccs) : Prop := match acs with ACons (PDot _) _ => True | _ => False end.

(** A place to assign to: a name with accesses, the last of which is no call. *)
Fixpoint ends_in_call (acs : paccs) : Prop :=
  match acs with
  | ANil => False
  | ACons a ANil => match a with PCall _ => True | _ => False end
  | ACons _ acs' => ends_in_call acs'
  end.
Definition place (a : popnd) : Prop :=
  exists w acs, a = POpd None (CWord w) acs None /\ ~ ends_in_call acs.
Fixpoint no_assignment (tl : pops) : Prop :=
  match tl with PNil => True | PCons o _ tl' => ~ assignment o /\ no_assignment tl' end.
(** Assignments stand at the beginning, to places. *)
Fixpoint assigns (h : popnd) (tl : pops) : Prop :=
  match tl with
  | PNil => True
  | PCons o a tl' => (assignment o /\ place h /\ assigns a tl') \/ (~ assignment o /\ no_assignment tl')
  end.

Section Written.
(** As in the model: what other parts of the compiler accept. *)
Variable other : okind -> ptr -> res (Z * ptr).
Variable kind : literal -> option bool.
Variable known is_type : list Z -> bool.
Variable makes : pexpr -> bool.

(** ** Writings: [written e t] says that [t] is one of the texts of [e].  Blanks and comments
    stand between any two tokens. *)
Inductive written : pexpr -> list Z -> Prop :=
| w_expr : forall h tl tn t1 t2 t3, w_opnd h t1 -> w_ops tl t2 -> w_tern tn t3 -> assigns h tl ->
    written (PExpr h tl tn) (t1 ++ t2 ++ t3)
with w_ops : pops -> list Z -> Prop :=
| w_nil : w_ops PNil []
| w_cons : forall o a tl b1 b2 t t2, trivia b1 -> trivia b2 -> o <> OpTernaryIf -> o <> OpTernaryElse ->
    w_opnd a t -> w_ops tl t2 -> glue o b1 (b2 ++ t) ->
    w_ops (PCons o a tl) (b1 ++ spelling o ++ b2 ++ t ++ t2)
with w_tern : ptern -> list Z -> Prop :=
| w_notern : w_tern PNoTern []
| w_some : forall e1 e2 b1 b2 b3 b4 t1 t2, trivia b1 -> trivia b2 -> trivia b3 -> trivia b4 ->
    written e1 t1 -> written e2 t2 ->
    w_tern (PTern e1 (PSome e2)) (b1 ++ 63 :: b2 ++ t1 ++ b3 ++ 58 :: b4 ++ t2)
with w_opnd : popnd -> list Z -> Prop :=
| w_opd : forall pre p c s t acs ta post, prefix pre p -> w_core c s t -> w_accs acs ta ->
    fits s pre post ->
    (pre = Some PreTypeof -> is_type (match c with CLit (LText v) => v | CStr v => v | CWord w => w | _ => [] end) = false) ->
    (acs = ANil \/ s = SContainer \/ (s = SString /\ first_dot acs) \/
     (exists w, c = CWord w /\ s = SName /\ is_type w = false) \/
     (exists e, c = CParen e /\ makes e = true /\ first_dot acs)) ->
    w_opnd (POpd pre c acs post) (p ++ t ++ ta ++ postfix post)
with w_core : pcore -> sort -> list Z -> Prop :=
| w_int : forall v, numeral v -> kind (LText v) = Some true -> w_core (CLit (LText v)) SInt v
| w_float : forall v, numeral v -> kind (LText v) = Some false -> w_core (CLit (LText v)) SFloat v
| w_string : forall v, string_body v -> w_core (CStr v) SString (34 :: v ++ [34])
| w_truth : forall w, truth w -> w_core (CWord w) STruth w
| w_nothing : forall w, nothing w -> w_core (CWord w) SNothing w
| w_name : forall w, name w -> known w = true -> w_core (CWord w) SName w
| w_paren : forall e b1 b2 t, trivia b1 -> trivia b2 -> written e t ->
    w_core (CParen e) SParen (40 :: b1 ++ t ++ b2 ++ [41])
| w_vector : forall x t, (forall r, other KVector (91 :: t ++ r) = Ok (x, r)) -> w_core (COther KVector x) SContainer (91 :: t)
| w_object : forall x t, (forall r, other KObject (123 :: t ++ r) = Ok (x, r)) -> w_core (COther KObject x) SContainer (123 :: t)
| w_new : forall x t, In (hd 0 t) [32; 9; 10; 13] -> (forall r, other KNew (bytes "new" ++ t ++ r) = Ok (x, r)) -> w_core (COther KNew x) SNew (bytes "new" ++ t)
| w_function : forall x b t, trivia b -> In (hd 0 (b ++ [40])) [32; 9; 10; 13; 40] -> (forall r, other KFunction (bytes "function" ++ b ++ 40 :: t ++ r) = Ok (x, r)) ->
    w_core (COther KFunction x) SContainer (bytes "function" ++ b ++ 40 :: t)
with w_accs : paccs -> list Z -> Prop :=
| w_anil : w_accs ANil []
| w_acons : forall a acs b t ta, trivia b -> w_acc a t -> w_accs acs ta -> w_accs (ACons a acs) (b ++ t ++ ta)
with w_acc : pacc -> list Z -> Prop :=
| w_call : forall g b t, trivia b -> w_args g t -> w_acc (PCall g) (40 :: b ++ t ++ [41])
| w_index : forall e b1 b2 t, trivia b1 -> trivia b2 -> written e t -> w_acc (PIdx (PSome e)) (91 :: b1 ++ t ++ b2 ++ [93])
| w_dot : forall w b, trivia b -> name w -> w_acc (PDot w) (46 :: b ++ w)
(** Arguments with the blanks after them. *)
with w_args : pargs -> list Z -> Prop :=
| w_gnil : w_args GNil []
| w_gcons : forall e g t b t2, written e t -> trivia b -> w_more g t2 -> w_args (GCons e g) (t ++ b ++ t2)
(** What follows the first argument; a comma may stand behind the last one. *)
with w_more : pargs -> list Z -> Prop :=
| w_mnil : w_more GNil []
| w_mcomma : forall b, trivia b -> w_more GNil (44 :: b)
| w_mcons : forall e g b1 t b2 t2, trivia b1 -> written e t -> trivia b2 -> w_more g t2 ->
    w_more (GCons e g) (44 :: b1 ++ t ++ b2 ++ t2).

(** ** The end of an expression: [r] goes on with blanks [b] and then [u], which is a closing
    character or the end of the text, a colon, a keyword of a statement, or, on another line,
    the start of an operand. *)
Definition closing (u : list Z) : Prop := In (hd 0 u) [41; 44; 93; 59; 0; 125].
Definition statement_keyword (u : list Z) : Prop :=
  exists k r, u = kw_spelling k ++ r /\ ~ In k [KwThis; KwNew; KwFunction; KwVarArgs] /\
    In (hd 0 r) [0; 32; 9; 10; 13; 59; 58; 40; 41; 123; 125; 46; 91; 93].
(** A letter, a digit, a quote, a brace, [~], [!], [++] or [--]; neither [!=] nor [in] nor
    [instanceof] nor function. *)
Definition new_operand (u : list Z) : Prop :=
  ~ starts_with u (kw_spelling KwFunction) /\
  ((is_alnum_ (hd 0 u) = true /\
    forall o r, word_operator o -> u = spelling o ++ r -> ~ line_blank (hd 0 r)) \/
   In (hd 0 u) (bytes "{~'""") \/
   (exists r, u = 33 :: r /\ hd 0 r <> 61) \/
   starts_with u (bytes "++") \/ starts_with u (bytes "--")).
Definition ends_at (r u : list Z) : Prop :=
  exists b, trivia b /\ r = b ++ u /\
    (closing u \/ (hd 0 u = 58 /\ hd 0 (tl u) <> 58) \/ (b <> [] /\ statement_keyword u) \/ (In 10 b /\ new_operand u)).
End Written.

Scheme written_m := Induction for written Sort Prop
with w_ops_m := Induction for w_ops Sort Prop
with w_tern_m := Induction for w_tern Sort Prop
with w_opnd_m := Induction for w_opnd Sort Prop
with w_core_m := Induction for w_core Sort Prop
with w_accs_m := Induction for w_accs Sort Prop
with w_acc_m := Induction for w_acc Sort Prop
with w_args_m := Induction for w_args Sort Prop
with w_more_m := Induction for w_more Sort Prop.
Combined Scheme written_ind_all from written_m, w_ops_m, w_tern_m, w_opnd_m, w_core_m, w_accs_m, w_acc_m, w_args_m, w_more_m.

(** ** The tokens of a tree in their order, with blanks and comments between them and nothing
    else: what a text that is read as [e] has to consist of. *)
Inductive char_text : Z -> list Z -> Prop :=
| c_plain : forall c, c <> 39 -> c <> 92 -> c <> 0 -> char_text (if 128 <=? c then c - 256 else c) [39; c; 39]
| c_newline : char_text 10 (39 :: 92 :: bytes "n'")
| c_return : char_text 13 (39 :: 92 :: bytes "r'")
| c_tab : char_text 9 (39 :: 92 :: bytes "t'").
Section Spelled.
Variable other : okind -> ptr -> res (Z * ptr).
Inductive spelled : pexpr -> list Z -> Prop :=
| s_expr : forall h tl tn t1 t2 t3, s_opnd h t1 -> s_ops tl t2 -> s_tern tn t3 -> spelled (PExpr h tl tn) (t1 ++ t2 ++ t3)
with s_ops : pops -> list Z -> Prop :=
| s_nil : s_ops PNil []
| s_cons : forall o a tl b1 b2 t t2, trivia b1 -> trivia b2 -> o <> OpTernaryIf -> o <> OpTernaryElse ->
    s_opnd a t -> s_ops tl t2 -> s_ops (PCons o a tl) (b1 ++ spelling o ++ b2 ++ t ++ t2)
with s_tern : ptern -> list Z -> Prop :=
| s_notern : s_tern PNoTern []
| s_some : forall e1 e2 b1 b2 b3 b4 t1 t2, trivia b1 -> trivia b2 -> trivia b3 -> trivia b4 ->
    spelled e1 t1 -> spelled e2 t2 ->
    s_tern (PTern e1 (PSome e2)) (b1 ++ 63 :: b2 ++ t1 ++ b3 ++ 58 :: b4 ++ t2)
| s_lost : forall e1 b1 b2 b3 t1, trivia b1 -> trivia b2 -> trivia b3 ->
    spelled e1 t1 -> s_tern (PTern e1 PNone) (b1 ++ 63 :: b2 ++ t1 ++ b3 ++ [58])
with s_opnd : popnd -> list Z -> Prop :=
| s_opd : forall pre p b c t acs ta post,
    p = (match pre with None => [] | Some q => pre_spelling q end) -> pre <> Some PreInvalid -> trivia b ->
    s_core c t -> s_accs acs ta -> s_opnd (POpd pre c acs post) (p ++ b ++ t ++ ta ++ postfix post)
with s_core : pcore -> list Z -> Prop :=
| s_number : forall v, numeral v -> s_core (CLit (LText v)) v
| s_char : forall z t, char_text z t -> s_core (CLit (LChar z)) t
| s_string : forall v, string_body v -> s_core (CStr v) (34 :: v ++ [34])
| s_word : forall w, w <> [] -> s_core (CWord w) w
| s_paren : forall e b1 b2 t, trivia b1 -> trivia b2 -> spelled e t -> s_core (CParen e) (40 :: b1 ++ t ++ b2 ++ [41])
| s_other : forall k x t r, other k (t ++ r) = Ok (x, r) -> s_core (COther k x) t
with s_accs : paccs -> list Z -> Prop :=
| s_anil : s_accs ANil []
| s_acons : forall a acs b t ta, trivia b -> s_acc a t -> s_accs acs ta -> s_accs (ACons a acs) (b ++ t ++ ta)
with s_acc : pacc -> list Z -> Prop :=
| s_call : forall g b t, trivia b -> s_args g t -> s_acc (PCall g) (40 :: b ++ t ++ [41])
| s_index : forall e b1 b2 t, trivia b1 -> trivia b2 -> spelled e t -> s_acc (PIdx (PSome e)) (91 :: b1 ++ t ++ b2 ++ [93])
| s_noindex : forall b, trivia b -> s_acc (PIdx PNone) (91 :: b ++ [93])
| s_dot : forall w b, trivia b -> is_alpha_ (hd 0 w) = true -> s_acc (PDot w) (46 :: b ++ w)
with s_args : pargs -> list Z -> Prop :=
| s_gnil : s_args GNil []
| s_gcons : forall e g t b0 b t2, trivia b0 -> spelled e t -> trivia b -> s_more g t2 -> s_args (GCons e g) (b0 ++ t ++ b ++ t2)
with s_more : pargs -> list Z -> Prop :=
| s_mnil : s_more GNil []
| s_mcomma : forall b, trivia b -> s_more GNil (44 :: b)
| s_mcons : forall e g b1 t b2 t2, trivia b1 -> spelled e t -> trivia b2 -> s_more g t2 ->
    s_more (GCons e g) (44 :: b1 ++ t ++ b2 ++ t2).
End Spelled.
(** Blanks up to [u]: a comment may run to the end of the text. *)
Definition skipped (b u : list Z) : Prop :=
  trivia b \/ (u = [] /\ exists b1 b2, b = b1 ++ b2 /\ trivia b1 /\ (open_line b2 \/ open_block b2)).
