(** Properties of the lexical level: C62, C63, C83-C87. *)
From Coq Require Import List ZArith Bool Lia String.
From Verif Require Import Base StringModel LexModel LexSpec LexProofs LexOps LexTok LexNum.
Import ListNotations.
Local Open Scope Z_scope.

(** ** C62: blanks and comments *)

(** A text in which every carriage return is followed by a new line: what is
    skipped are blanks and comments, the line counter grows by the line ends
    skipped, and what is left starts with something else.  Missing: a carriage
    return alone, see below; a comment without an end is skipped, too. *)
Theorem C62_skip_partial : forall s l, no_lone_cr s ->
  match ignore_blanks s l with
  | Ok (r, l') => exists b, s = b ++ r /\ significant r /\ l' = l + newlines b /\
      (trivia b \/ exists b1 b2, b = b1 ++ b2 /\ trivia b1 /\ r = [] /\ (open_line b2 \/ open_block b2))
  | Thr => exists b r, s = b ++ bytes "*/" ++ r /\ trivia b
  | _ => False
  end.
Proof. intros s l H. apply (blanks_main (S (List.length s))); [lia | exact H]. Qed.

(** Blanks and comments change nothing but the line counter. *)
Theorem C62_insignificant : forall b t l, trivia b -> (hd 0 t = 13 -> exists r, t = 13 :: 10 :: r) ->
  ignore_blanks (b ++ t) l = ignore_blanks t (l + newlines b).
Proof. intros b t l B H. apply blanks_insig; auto. Qed.

(** A block comment without an end is no error: everything up to the end of the
    text vanishes silently. *)
Theorem C62_unterminated_comment_refuted : forall b l, ~ contains (bytes "*/") b ->
  ignore_blanks (bytes "/*" ++ b) l = Ok ([], l + newlines b).
Proof. intros. apply ib_open_block; assumption. Qed.

(** After a carriage return alone blanks are not skipped. *)
Theorem C62_carriage_return_refuted : forall t l, ignore_blanks (13 :: 32 :: t) l = Ok (32 :: t, l).
Proof. intros. apply ib_cr. cbn. discriminate. Qed.

(** The product of a factor and something after a comment: the star and the
    slash are taken for the end of a comment. *)
Theorem C62_star_comment_refuted : forall c t l, ignore_blanks (bytes "*" ++ bytes "/*" ++ c ++ bytes "*/" ++ t) l = Thr.
Proof. intros. apply (ib_stray (42 :: c ++ bytes "*/" ++ t)). Qed.

Example C62_case :
  no_lone_cr (bytes "  /* a */ // b" ++ [13; 10] ++ bytes "x") /\
  ignore_blanks (bytes "  /* a */ // b" ++ [13; 10] ++ bytes "x") 1 = Ok (bytes "x", 2).
Proof.
  split; [|reflexivity]. intros a b E.
  do 14 (destruct a as [|? a]; [discriminate E | injection E as ? E]).
  destruct a as [|? a]; [injection E as E; exists (bytes "x"); symmetry; exact E | injection E as ? E].
  destruct a as [|? [|? [|? a]]]; discriminate E.
Qed.

(** ** C63: operators *)

(** Reading an operator never leaves the text; what is found is the longest
    operator at this place, where ++ and -- count as operators, too. *)
Theorem C63_longest_match : forall t, exists r, is_operator t = Ok r /\
  match r with
  | Some OpInstanceof => word_at (bytes "instanceof") t
  | Some OpIn => word_at (bytes "in") t
  | Some o => In o punctuation /\ longest_in language t (spelling o)
  | None =>
      (forall o, In o punctuation -> starts_with t (spelling o) ->
         starts_with t (bytes "++") \/ starts_with t (bytes "--")) /\
      ~ word_at (bytes "instanceof") t /\ ~ word_at (bytes "in") t
  end.
Proof. exact is_operator_spec. Qed.

(** The words need a space or a line end after them: a tab or a parenthesis does
    not do. *)
Theorem C63_word_operators_refuted : forall t, is_operator (bytes "in" ++ 9 :: t) = Ok None /\
  is_operator (bytes "in(" ++ t) = Ok None /\
  is_operator (bytes "instanceof" ++ 9 :: t) = Ok None /\
  is_operator (bytes "in/*" ++ t) = Ok None.
Proof. intros t. repeat split; destruct t; reflexivity. Qed.

Example C63_case : is_operator (bytes ">>=1") = Ok (Some OpAssignShr) /\ is_operator (bytes ">>1") = Ok (Some OpShr)
  /\ is_operator (bytes "<") = Ok (Some OpLt) /\ is_operator (bytes "in x") = Ok (Some OpIn).
Proof. repeat split. Qed.

(** ** C83: keywords *)

(** A keyword is recognised exactly where its spelling is followed by a blank, a
    bracket, a dot, a colon, a semicolon, a block comment or the end. *)
Theorem C83_keyword_partial : forall t, exists r, is_keyword t = Ok r /\
  (forall k, r = Some k <->
     exists u, t = kw_spelling k ++ u /\
       (In (hd 0 u) [0; 32; 9; 46; 40; 41; 123; 125; 91; 93; 10; 13; 58; 59] \/ starts_with u (bytes "/*"))).
Proof. exact is_keyword_spec. Qed.

(** So a keyword followed by a line comment, a string, a character or a sign is
    none, although no identifier contains these characters. *)
Theorem C83_not_recognised_refuted : forall k u, In (hd 0 u) (bytes """'-+!~,=<>&|*^%?") \/ starts_with u (bytes "//") ->
  is_keyword (kw_spelling k ++ u) = Ok None.
Proof.
  intros k u H. destruct (is_keyword_spec (kw_spelling k ++ u)) as (r & E & R). rewrite E. destruct r as [k'|]; [|reflexivity].
  exfalso. destruct (proj1 (R k') eq_refl) as (u' & E' & K).
  assert (k' = k) by (eapply kw_unique; [exists u'; exact E' | exists u; reflexivity]). subst k'.
  apply app_inv_head in E'. subst u'. destruct K as [K|[v ->]].
  - destruct H as [H|[v ->]].
    + assert (X : forallb (fun x => negb (existsb (Z.eqb x) special)) (bytes """'-+!~,=<>&|*^%?") = true) by reflexivity.
      rewrite forallb_forall in X. specialize (X _ H). apply existsb_In in K. rewrite K in X. discriminate.
    + cbn in K. repeat (destruct K as [K|K]; [discriminate|]). exact K.
  - destruct H as [H|[w H]]; [|discriminate]. cbn in H. repeat (destruct H as [H|H]; [discriminate|]). exact H.
Qed.

(** An identifier is never taken for a keyword. *)
Theorem C83_identifier_is_no_keyword : forall k c u, is_alnum_ c = true -> is_keyword (kw_spelling k ++ c :: u) = Ok None.
Proof.
  intros k c u H. destruct (is_keyword_spec (kw_spelling k ++ c :: u)) as (r & E & R). rewrite E. destruct r as [k'|]; [|reflexivity].
  exfalso. destruct (proj1 (R k') eq_refl) as (u' & E' & K).
  assert (k' = k) by (eapply kw_unique; [exists u'; exact E' | exists (c :: u); reflexivity]). subst k'.
  apply app_inv_head in E'. subst u'. destruct K as [K|[v K]].
  - cbn [hd] in K. assert (X : forallb (fun x => negb (is_alnum_ x)) special = true) by reflexivity.
    rewrite forallb_forall in X. specialize (X _ K). rewrite H in X. discriminate.
  - inversion K; subst. discriminate.
Qed.

Example C83_case : is_keyword (bytes "else{") = Ok (Some KwElse) /\ is_keyword (bytes "do/*x*/{") = Ok (Some KwDo) /\
  is_keyword (bytes "double") = Ok None /\ is_keyword (bytes "else//x") = Ok None /\ is_keyword (bytes "return-1") = Ok None.
Proof. repeat split. Qed.

(** ** C84: the scanner stays inside the text *)

(** Blanks, operators, keywords and, unless the text is at its end, tokens are
    read without leaving the text, and reading ends.  Missing: the end of the
    text where an operand is expected, see below. *)
Theorem C84_inside_partial : forall t, t <> [] -> symbol_token t = Thr \/ exists r, symbol_token t = Ok r.
Proof. exact symbol_safe. Qed.

(** After a binary operator and blanks the text may be at its end: then the next
    token is read from beyond its terminator. *)
Theorem C84_operator_at_end_refuted : forall o b l, trivia b -> next_operand o (spelling o ++ b) l = UB.
Proof.
  intros o b l T. unfold next_operand. rewrite adv_app.
  rewrite <- (app_nil_r b). rewrite blanks_insig; [|exact T | cbn; discriminate]. rewrite ib_nil. reflexivity.
Qed.
(** The same after a sign. *)
Theorem C84_sign_at_end_refuted : forall b l, trivia b -> b <> [] -> operand_start (45 :: b) l = UB /\ operand_start (33 :: b) l = UB.
Proof.
  intros b l T NE.
  assert (F : hd0 b <> 45 /\ hd0 b <> 43 /\ hd0 b <> 61) by (destruct T; cbn; try lia; destruct H as [-> | [-> | ->]]; lia).
  destruct F as (F1 & F2 & F3).
  assert (P : is_pre_operation (45 :: b) = Ok (Some PreNeg) /\ is_pre_operation (33 :: b) = Ok (Some PreNot)).
  { destruct b as [|c b]; [congruence|]. cbn [hd0 hd] in *. apply Z.eqb_neq in F1, F2, F3.
    split; unfold is_pre_operation, is_dec_inc_invalid; cbn; rewrite ?F1, ?F2, ?F3; cbn; rewrite ?F1, ?F2, ?F3; reflexivity. }
  destruct P as [P1 P2]. unfold operand_start. rewrite P1, P2. cbn [rbind].
  change (adv (List.length (pre_spelling PreNeg)) (45 :: b)) with b.
  change (adv (List.length (pre_spelling PreNot)) (33 :: b)) with b.
  assert (I : ignore_blanks b l = Ok ([], l + newlines b)).
  { rewrite <- (app_nil_r b) at 1. rewrite blanks_insig; [|exact T | cbn; discriminate]. apply ib_nil. }
  rewrite I. split; reflexivity.
Qed.

Example C84_case : symbol_token (bytes "abc+1") = Ok (TWord (bytes "abc"), bytes "+1") /\
  symbol_token (bytes "1.5;") = Ok (TLit (LText (bytes "1.5")), bytes ";") /\
  next_operand OpAdd (bytes "+ b") 1 = Ok (None, OpdToken (TWord (bytes "b")), [], 1).
Proof. repeat split. Qed.

(** ** C85: numbers *)

(** The numbers: digits with an optional fraction, an exponent only after a
    fraction; hexadecimal after 0x; binary before b.  They have to be followed by
    a blank, a bracket, a separator, an operator, a quote or the end. *)
Theorem C85_numbers : forall t v r, parse_literal_number t = Ok (Some (LText v, r)) <->
  t = v ++ r /\
  (((decimal v \/ hexadecimal v) /\ ends_token r /\ hd 0 r <> 46) \/ (binary v /\ ends_token r)).
Proof.
  intros t v r. split; [apply parse_sound|]. intros [-> N]. apply parse_complete. exact N.
Qed.

(** Reading a number ends, and stays inside the text. *)
Theorem C85_inside : forall t, parse_literal_number t = Thr \/ exists r, parse_literal_number t = Ok r.
Proof. exact parse_safe. Qed.

(** An exponent directly after an integer is an error. *)
Theorem C85_integer_exponent_refuted : forall a e r, all is_digit a -> a <> [] -> e = 101 \/ e = 69 ->
  forall v q, parse_literal_number (a ++ e :: r) <> Ok (Some (LText v, q)).
Proof.
  intros a e r A NE EE v q H. apply C85_numbers in H. destruct H as [E N].
  assert (EN : forall t, ends_token t -> hd 0 t <> e /\ is_digit (hd 0 t) = false /\ hd 0 t <> 98).
  { intros t [K|[w ->]]; [|cbn; repeat split; destruct EE; subst; discriminate].
    assert (X : forallb (fun x => negb (x =? 101) && negb (x =? 69) && negb (is_digit x) && negb (x =? 98)) ender = true) by reflexivity.
    rewrite forallb_forall in X. specialize (X _ K). rewrite !andb_true_iff, !negb_true_iff, !Z.eqb_neq in X.
    destruct X as [[[X1 X2] X3] X4]. repeat split; auto. destruct EE; subst; auto. }
  assert (ED : is_digit e = false) by (destruct EE; subst; reflexivity).
  (* v starts with digits: the common part of [a] and the digits of [v] is [a] *)
  assert (P : forall a d w r', all is_digit a -> all is_digit d -> (is_digit (hd 0 w) = false) ->
     a ++ e :: r' = d ++ w -> w = e :: r').
  { clear - ED. induction a as [|x a IH]; intros d w r' A D W E.
    - destruct d as [|y d]; [symmetry; exact E|]. inversion E; subst. inversion D; subst. congruence.
    - destruct d as [|y d].
      + cbn in E. subst w. inversion A; subst. cbn in W. congruence.
      + inversion E; subst. inversion A; inversion D; subst. eapply IH; eauto. }
  assert (DE : forall d w, all is_digit d -> a ++ e :: r = d ++ 46 :: w -> False).
  { intros d w D X. apply P in X; auto. inversion X; subst. destruct EE; discriminate. }
  destruct N as [([D|D] & EQ & _)|(D & EQ)].
  - destruct (EN q EQ) as (Q1 & Q2 & _). destruct D as [d D _ | d b D B | d b e' sg x D B NB E' SG X NX].
    + apply P in E; auto. subst q. apply Q1. reflexivity.
    + rewrite <- app_assoc in E. exact (DE d _ D E).
    + rewrite <- app_assoc in E. exact (DE d _ D E).
  - destruct D as [c d C D _]. destruct a as [|x a]; [congruence|]. inversion E; subst. inversion A; subst.
    destruct a as [|y a]; cbn in H1; inversion H1; subst.
    + destruct C; subst; destruct EE; discriminate.
    + inversion H3; subst. destruct C; subst; discriminate.
  - destruct D as [d D _]. assert (DD : all is_digit d).
    { eapply Forall_impl; [|exact D]. intros c H. apply orb_true_iff in H. rewrite !Z.eqb_eq in H. apply digit_range. lia. }
    rewrite <- app_assoc in E. cbn [app] in E. apply P in E; auto. inversion E; subst. destruct EE; discriminate.
Qed.
(** A dot alone is taken for a number by the scanner. *)
Theorem C85_dot_refuted : forall r, ends_token r -> hd 0 r <> 46 -> parse_literal_number (46 :: r) = Ok (Some (LText [46], r)).
Proof.
  intros r E N. apply C85_numbers. split; [reflexivity|]. left. split; [|auto]. left.
  apply (d_frac [] []); constructor.
Qed.

Example C85_case : parse_literal_number (bytes "3.25e-7;") = Ok (Some (LText (bytes "3.25e-7"), bytes ";")) /\
  parse_literal_number (bytes "0xFf)") = Ok (Some (LText (bytes "0xFf"), bytes ")")) /\
  parse_literal_number (bytes "101b+1") = Ok (Some (LText (bytes "101b"), bytes "+1")) /\
  parse_literal_number (bytes "1e5") = Thr /\ parse_literal_number (bytes "0x") = Thr.
Proof. repeat split. Qed.

(** ** C86: string literals *)

(** A string literal ends with the first quote that does not follow a backslash. *)
Theorem C86_string_literal_partial : forall t b r, string_literal t = Ok (b, r) <-> t = 34 :: b ++ 34 :: r /\ string_body b.
Proof. exact string_literal_spec. Qed.
Theorem C86_inside : forall t, string_literal t = Thr \/ exists r, string_literal t = Ok r.
Proof.
  intros t. unfold string_literal. rewrite peek0. cbn [rbind]. destruct (hd0 t =? 34); [|auto]. apply string_loop_safe.
Qed.
(** A string whose last character is an escaped backslash is not closed by its
    quote, although the quote is not escaped. *)
Theorem C86_escaped_backslash_refuted : forall b r, escaped_body b -> string_literal (34 :: (b ++ [92; 92]) ++ 34 :: r) <> Ok (b ++ [92; 92], r).
Proof.
  intros b r _ H. apply C86_string_literal_partial in H. destruct H as (_ & _ & _ & H). apply (H (b ++ [92])).
  rewrite <- app_assoc. reflexivity.
Qed.
(** Bodies in which backslashes escape something else than a backslash are read
    as they are meant. *)
Inductive plain_body : list Z -> Prop :=
| pb_nil : plain_body []
| pb_char : forall c b, c <> 34 -> c <> 92 -> c <> 10 -> plain_body b -> plain_body (c :: b)
| pb_esc : forall c b, c <> 10 -> c <> 92 -> plain_body b -> plain_body (92 :: c :: b).
Theorem C86_plain_escapes : forall b r, plain_body b -> string_literal (34 :: b ++ 34 :: r) = Ok (b, r).
Proof.
  intros b r P. apply C86_string_literal_partial. split; [reflexivity|].
  assert (L : forall b, plain_body b -> forall p, p <> 92 -> forall x, p :: b <> x ++ [92]).
  { clear. induction 1 as [|c b N1 N2 N3 P IH|c b N1 N2 P IH]; intros p Np x E.
    - destruct x as [|? [|]]; inversion E; congruence.
    - destruct x as [|y x]; [discriminate|]. inversion E; subst. exact (IH c N2 x H1).
    - destruct x as [|y [|z x]]; inversion E; subst. exact (IH c N2 x H2). }
  unfold string_body. split; [|split].
  - induction P; cbn; [tauto | intros [K|K]; [congruence|tauto] | intros [K|[K|K]]; [discriminate|congruence|tauto]].
  - induction P as [|c b N1 N2 N3 P IH|c b N1 N2 P IH]; intros x y E.
    + destruct x; discriminate.
    + destruct x as [|z x]; inversion E; subst; [congruence|]. destruct (IH x y eq_refl) as [x' ->]. exists (z :: x'). reflexivity.
    + destruct x as [|z [|w x]]; inversion E; subst; [exists []; reflexivity|].
      destruct (IH x y eq_refl) as [x' ->]. exists (92 :: w :: x'). reflexivity.
  - destruct P as [|c b N1 N2 N3 P|c b N1 N2 P]; intros x E.
    + destruct x; discriminate.
    + eapply (L b P c N2 x). exact E.
    + destruct x as [|z x]; inversion E; subst. eapply (L b P c N2 x). assumption.
Qed.

Example C86_case : string_literal (bytes """a\""b"" + c") = Ok (bytes "a\""b", bytes " + c") /\
  string_literal (bytes """c:\\"";") = Thr /\ string_literal (bytes """abc") = Thr.
Proof. repeat split. Qed.

(** ** C87: identifiers *)

(** The name of a variable, function, class or member in a declaration: the
    longest prefix of letters, digits and underscores; it starts with no digit. *)
Theorem C87_declared_name : forall t v r, get_name_identifier_token t = Ok (v, r) <->
  t = v ++ r /\ all is_alnum_ v /\ (exists c v', v = c :: v' /\ is_alpha_ c = true) /\ is_alnum_ (hd 0 r) = false.
Proof.
  assert (U : forall a v b r, all is_alnum_ a -> all is_alnum_ v -> is_alnum_ (hd 0 b) = false -> is_alnum_ (hd 0 r) = false ->
     a ++ b = v ++ r -> a = v /\ b = r).
  { induction a as [|y a IH]; intros v b r A V B R E.
    - destruct v as [|z v]; [auto|]. cbn in E. subst b. inversion V; subst. cbn in B. congruence.
    - destruct v as [|z v]; [cbn in E; subst r; inversion A; subst; cbn in R; congruence|].
      inversion E; subst. inversion A; inversion V; subst. destruct (IH v b r) as [-> ->]; auto. }
  assert (SP : forall t v r, span is_alnum_ t = (v, r) <-> t = v ++ r /\ all is_alnum_ v /\ is_alnum_ (hd 0 r) = false).
  { induction t as [|c t IH]; intros v r; cbn [span].
    - split.
      + intros E. inversion E; subst. repeat split. constructor.
      + intros (E & _ & _). destruct v; [|discriminate]. cbn in E. subst. reflexivity.
    - destruct (is_alnum_ c) eqn:C.
      + destruct (span is_alnum_ t) as [a b] eqn:S. specialize (IH a b). destruct IH as [IH _]. destruct (IH eq_refl) as (-> & A & B).
        split.
        * intros E. inversion E; subst. repeat split; auto. constructor; auto.
        * intros (E & AV & R). destruct v as [|x v].
          { cbn in E. subst r. cbn in R. congruence. }
          inversion E; subst. inversion AV; subst. destruct (U a v b r A H3 B R H1) as [-> ->]. reflexivity.
      + split.
        * intros E. inversion E; subst. repeat split; [constructor | exact C].
        * intros (E & AV & R). destruct v as [|x v]; [cbn in E; subst; reflexivity|].
          inversion E; subst. inversion AV; subst. congruence. }
  intros t v r. unfold get_name_identifier_token. rewrite peek0. cbn [rbind].
  destruct (is_alpha_ (hd0 t)) eqn:AL.
  - split.
    + intros E. inversion E as [E1]. apply SP in E1. destruct E1 as (-> & A & R). repeat split; auto.
      destruct v as [|c v].
      { cbn [app] in AL. unfold is_alnum_ in R. change (hd0 r) with (hd 0 r) in AL. rewrite AL in R. discriminate. }
      exists c, v. split; [reflexivity | exact AL].
    + intros (-> & A & _ & R). f_equal. apply SP. auto.
  - split; [discriminate|]. intros (-> & _ & (c & v' & -> & K) & _). cbn [app hd0 hd] in AL. congruence.
Qed.

(** The name in an expression: only its first character is checked. *)
Theorem C87_name_in_expression_refuted : forall w, is_alpha_ (hd 0 w) = true ->
  is_keyword w = Ok None -> is_operator w = Ok None -> w <> bytes "true" -> w <> bytes "false" -> w <> bytes "null" ->
  check_identifier_name w = Ok true.
Proof.
  intros w A K O N1 N2 N3. unfold check_identifier_name. rewrite K, O. cbn [rbind existsb].
  destruct (list_eq_dec Z.eq_dec w (bytes "true")); [congruence|].
  destruct (list_eq_dec Z.eq_dec w (bytes "false")); [congruence|].
  destruct (list_eq_dec Z.eq_dec w (bytes "null")); [congruence|].
  cbn [orb]. rewrite peek0. cbn [rbind]. change (hd0 w) with (hd 0 w). rewrite A. reflexivity.
Qed.
(** What is accepted starts with a letter and is no reserved word. *)
Theorem C87_name_in_expression_partial : forall w, check_identifier_name w = Ok true ->
  is_alpha_ (hd 0 w) = true /\ (forall k, w <> kw_spelling k) /\ w <> bytes "true" /\ w <> bytes "false" /\ w <> bytes "null".
Proof.
  intros w H. unfold check_identifier_name in H.
  destruct (is_keyword_spec w) as (k & EK & RK). rewrite EK in H. cbn [rbind] in H. destruct k as [k|]; [discriminate|].
  destruct (is_operator_spec w) as (o & EO & _). rewrite EO in H. cbn [rbind] in H. destruct o; [discriminate|].
  destruct (existsb _ _) eqn:X in H; [discriminate|]. rewrite peek0 in H. cbn [rbind] in H. assert (H1 : is_alpha_ (hd 0 w) = true) by (change (hd 0 w) with (hd0 w); congruence).
  split; [exact H1|]. split.
  - intros k ->. destruct (RK k) as [_ RK']. discriminate RK'. exists []. split; [symmetry; apply app_nil_r | left; left; reflexivity].
  - repeat split; intros ->; discriminate.
Qed.

(** A reserved word where a name is expected is an error. *)
Theorem C87_reserved_refused : forall w, (exists k, w = kw_spelling k) \/ In w [bytes "true"; bytes "false"; bytes "null"] ->
  check_identifier_name w = Thr.
Proof. intros w [[k ->]|[<-|[<-|[<-|[]]]]]; [destruct k|..]; reflexivity. Qed.
(** The character classes in the statements above are the intended ones. *)
Theorem C87_characters : forall c : Z,
  (is_digit c = true <-> 48 <= c <= 57) /\
  (hex_digit c = true <-> 48 <= c <= 57 \/ 97 <= c <= 102 \/ 65 <= c <= 70) /\
  (is_alpha_ c = true <-> 97 <= c <= 122 \/ 65 <= c <= 90 \/ c = 95) /\
  (is_alnum_ c = true <-> 97 <= c <= 122 \/ 65 <= c <= 90 \/ c = 95 \/ 48 <= c <= 57).
Proof.
  intros c. unfold hex_digit, is_hex_letter, is_alnum_, is_alpha_, is_digit, in_range.
  rewrite ?orb_true_iff, ?andb_true_iff, ?Z.leb_le, ?Z.eqb_eq. lia.
Qed.

Example C87_case : get_name_identifier_token (bytes "ab_1 = 2") = Ok (bytes "ab_1", bytes " = 2") /\
  symbol_token (bytes "a#b$c;") = Ok (TWord (bytes "a#b$c"), bytes ";") /\ check_identifier_name (bytes "a#b$c") = Ok true.
Proof. repeat split. Qed.

Print Assumptions C62_skip_partial.
Print Assumptions C62_insignificant.
Print Assumptions C62_unterminated_comment_refuted.
Print Assumptions C62_carriage_return_refuted.
Print Assumptions C62_star_comment_refuted.
Print Assumptions C63_longest_match.
Print Assumptions C63_word_operators_refuted.
Print Assumptions C83_keyword_partial.
Print Assumptions C83_not_recognised_refuted.
Print Assumptions C83_identifier_is_no_keyword.
Print Assumptions C84_inside_partial.
Print Assumptions C84_operator_at_end_refuted.
Print Assumptions C84_sign_at_end_refuted.
Print Assumptions C85_numbers.
Print Assumptions C85_inside.
Print Assumptions C85_integer_exponent_refuted.
Print Assumptions C85_dot_refuted.
Print Assumptions C86_string_literal_partial.
Print Assumptions C86_inside.
Print Assumptions C86_escaped_backslash_refuted.
Print Assumptions C86_plain_escapes.
Print Assumptions C87_declared_name.
Print Assumptions C87_name_in_expression_refuted.
Print Assumptions C87_name_in_expression_partial.
Print Assumptions C87_reserved_refused.
Print Assumptions C87_characters.
