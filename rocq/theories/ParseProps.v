(** * Properties of the reading of expressions *)
From Coq Require Import List ZArith Bool Lia String.
From Verif Require Import Base StringModel LexModel LexSpec ParseModel ParseSpec ParseMain ParseSound ParseTotal ParseRefute.
Import ListNotations.
Local Open Scope Z_scope.

Section Claims.
Variable other : okind -> ptr -> res (Z * ptr).
Variable kind : literal -> option bool.
Variable known is_type : list Z -> bool.
Variable makes : pexpr -> bool.
Notation parse := (parse other kind known is_type makes).
Notation written := (written other kind known is_type makes).
Notation w_opnd := (w_opnd other kind known is_type makes).
Notation w_args := (w_args other kind known is_type makes).

(** ** C156: an expression is read as what is written *)

(** Every writing of an expression, with blanks and comments wherever they may stand, is read
    as this expression; the rest of the text starts after the blanks behind it. *)
Theorem C156_reading : forall e t b r u, written e t -> trivia b -> ends_at r u -> parse (b ++ t ++ r) = Ok (PSome e, u).
Proof. apply parse_written. Qed.
(** A text is the writing of one expression only. *)
Theorem C156_one_meaning : forall e e' t, written e t -> written e' t -> e = e'.
Proof.
  intros e e' t W W'. assert (E : ends_at [59] [59]) by (exists []; split; [constructor | split; [reflexivity | left; cbn; tauto]]).
  pose proof (parse_written other kind known is_type makes e t [] [59] [59] W tr_nil E) as H1.
  pose proof (parse_written other kind known is_type makes e' t [] [59] [59] W' tr_nil E) as H2. rewrite H1 in H2. congruence.
Qed.
(** How blanks and comments are put does not matter. *)
Theorem C156_layout : forall e t t' b b' r u, written e t -> written e t' -> trivia b -> trivia b' -> ends_at r u ->
  parse (b ++ t ++ r) = parse (b' ++ t' ++ r).
Proof. intros e t t' b b' r u W W' B B' E. rewrite (parse_written _ _ _ _ _ e t b r u), (parse_written _ _ _ _ _ e t' b' r u); auto. Qed.

(** ** C157: nothing is invented and nothing is left out *)

(** What has been read is the tokens of the tree in their order with blanks and comments
    between them, and the rest of the text follows. *)
Theorem C157_read_is_written : forall s e u,
  (forall k s x r, other k s = Ok (x, r) -> exists t, s = t ++ r) -> no_lone_cr s -> parse s = Ok (PSome e, u) ->
  exists b t r, s = b ++ t ++ r ++ u /\ trivia b /\ spelled other e t /\ skipped r u.
Proof. intros s e u OS N H. exact (proj1 (sound_all other kind known is_type makes OS (fuel_for s)) s (PSome e) u N H). Qed.
(** Where nothing has been read there are blanks and comments only. *)
Theorem C157_nothing_read : forall s u,
  (forall k s x r, other k s = Ok (x, r) -> exists t, s = t ++ r) -> no_lone_cr s -> parse s = Ok (PNone, u) ->
  exists b, s = b ++ u /\ skipped b u.
Proof. intros s u OS N H. exact (proj1 (sound_all other kind known is_type makes OS (fuel_for s)) s PNone u N H). Qed.

(** ** C158: reading ends and stays inside the text *)

(** Whatever the text is, reading it ends. *)
Theorem C158_reading_ends : (forall k s, match other k s with Ok (_, r) => exists t, s = t ++ r | Thr => True | _ => False end) ->
  forall s, parse s <> Loop.
Proof.
  intros OS s E. assert (G : forall k s, good s snd False (other k s)).
  { intros k s0. specialize (OS k s0). destruct (other k s0) as [[x r]| | |]; auto. }
  pose proof (parse_good other kind known is_type makes G s) as P. rewrite E in P. exact P.
Qed.
(** It leaves the text only if the text ends, up to blanks and comments, with an operator or a
    prefix.  Missing: these texts, see below. *)
Theorem C158_inside_partial : (forall k s, match other k s with Ok (_, r) => exists t, s = t ++ r | Thr => True | _ => False end) ->
  forall s, no_lone_cr s -> parse s = UB ->
  exists p w b, s = p ++ w ++ b /\ ((exists o, w = spelling o) \/ exists q, q <> PreInvalid /\ w = pre_spelling q) /\ skipped b [].
Proof.
  intros OS s N E. assert (G : forall k s, good s snd False (other k s)).
  { intros k s0. specialize (OS k s0). destruct (other k s0) as [[x r]| | |]; auto. }
  pose proof (parse_good other kind known is_type makes G s) as P. rewrite E in P. destruct P as (p & w & b & -> & D).
  exists p, w, b. split; [reflexivity|]. assert (NB : no_lone_cr b) by (apply nlc_suffix in N; apply nlc_suffix in N; exact N).
  destruct D as [[SG (v & B & B2)]|L]; [|exfalso; apply (lone_none b NB L)]. split; [exact SG|].
  assert (V : v = []).
  { destruct v as [|c v]; [reflexivity|]. exfalso. apply (lone_none b NB). exists (c :: v). repeat split; auto. discriminate. }
  subst v. destruct (blanks_sound b [] NB B) as (b' & -> & SK). rewrite app_nil_r. exact SK.
Qed.
(** After an operator and after a prefix at the end of the text the next token is read from
    beyond its terminator. *)
Theorem C158_operator_at_end_refuted : forall h t o b, w_opnd h t -> o <> OpTernaryIf -> o <> OpTernaryElse -> trivia b ->
  parse (t ++ 32 :: spelling o ++ 32 :: b) = UB.
Proof. apply operator_at_end. Qed.
Theorem C158_prefix_at_end_refuted : forall q b, In q [PreNot; PrePos; PreNeg; PreBwc; PreInc; PreDec] -> trivia b -> parse (pre_spelling q ++ b) = UB.
Proof. apply sign_at_end. Qed.

(** ** C159: no operand is missing *)

(** Brackets with blanks between them are read as an access without an index; only brackets
    with nothing between them are refused. *)
Theorem C159_index_refuted : forall w b r u, name w -> known w = true -> is_type w = false -> trivia b -> b <> [] -> ends_at r u ->
  parse (w ++ 91 :: b ++ 93 :: r) = Ok (PSome (PExpr (POpd None (CWord w) (ACons (PIdx PNone) ANil) None) PNil PNoTern), u).
Proof. apply index_missing. Qed.
Theorem C159_no_blank_partial : forall w r, name w -> known w = true -> is_type w = false -> parse (w ++ 91 :: 93 :: r) = Thr.
Proof. apply index_empty_refused. Qed.
(** A conditional expression is read without its last operand. *)
Theorem C159_else_refuted : forall h t1 e1 t2 b1 b2 b3 b4 u, w_opnd h t1 -> written e1 t2 -> trivia b1 -> trivia b2 -> trivia b3 -> trivia b4 ->
  closing u -> b4 <> [] \/ hd 0 u = 59 ->
  parse (t1 ++ b1 ++ 63 :: b2 ++ t2 ++ b3 ++ 58 :: b4 ++ u) = Ok (PSome (PExpr h PNil (PTern e1 PNone)), u).
Proof. apply else_missing. Qed.

(** ** C160: the end of a line ends an expression *)

(** A letter, a digit, a quote, a brace, [~], [!], [++] or [--] on the next line starts
    something new.  Missing: the other starts of operands, see below. *)
Theorem C160_next_line_partial : forall e t b u, written e t -> trivia b -> In 10 b -> new_operand u -> parse (t ++ b ++ u) = Ok (PSome e, u).
Proof.
  intros e t b u W T N O. apply (parse_written other kind known is_type makes e t [] (b ++ u) u W tr_nil).
  exists b. split; [exact T|]. split; [reflexivity|]. right. right. right. auto.
Qed.
(** A sign on the next line goes on with the expression. *)
Theorem C160_sign_refuted : forall h t a t2 b r u q o, w_opnd h t -> w_opnd a t2 -> trivia b -> In 10 b -> ends_at r u ->
  (o = OpSub /\ q = 45 \/ o = OpAdd /\ q = 43) ->
  parse (t ++ b ++ q :: 32 :: t2 ++ r) = Ok (PSome (PExpr h (PCons o a PNil) PNoTern), u).
Proof.
  intros h t a t2 b r u q o WH WA T N E C.
  assert (W : written (PExpr h (PCons o a PNil) PNoTern) (t ++ (b ++ spelling o ++ [32] ++ t2 ++ []) ++ [])).
  { apply w_expr; [exact WH| |constructor|].
    - assert (G : glue o b ([32] ++ t2)).
      { unfold glue. cbn [app hd]. split; [lia|]. split; [lia|]. split; [lia|]. intros [K|K]; destruct C as [[C _]|[C _]]; congruence. }
      apply w_cons; auto.
      + constructor; [auto | constructor].
      + destruct C as [[-> _]|[-> _]]; discriminate.
      + destruct C as [[-> _]|[-> _]]; discriminate.
      + constructor.
    - right. split; [|exact I]. intros A. destruct C as [[-> _]|[-> _]]; cbn in A; intuition discriminate. }
  pose proof (parse_written other kind known is_type makes _ _ [] r u W tr_nil E) as P.
  assert (EQ : [] ++ (t ++ (b ++ spelling o ++ [32] ++ t2 ++ []) ++ []) ++ r = t ++ b ++ q :: 32 :: t2 ++ r).
  { destruct C as [[-> ->]|[-> ->]]; cbn [app]; rewrite !app_nil_r; repeat (rewrite <- app_assoc; cbn [app]); reflexivity. }
  rewrite EQ in P. exact P.
Qed.
(** A parenthesis on the next line is a call. *)
Theorem C160_parenthesis_refuted : forall w g t b r u, name w -> known w = true -> is_type w = false -> w_args g t -> trivia b -> In 10 b -> ends_at r u ->
  parse (w ++ b ++ 40 :: t ++ 41 :: r) = Ok (PSome (PExpr (POpd None (CWord w) (ACons (PCall g) ANil) None) PNil PNoTern), u).
Proof.
  intros w g t b r u NW KW TW WG T N E.
  assert (W : written (PExpr (POpd None (CWord w) (ACons (PCall g) ANil) None) PNil PNoTern)
                      (([] ++ w ++ (b ++ (40 :: [] ++ t ++ [41]) ++ []) ++ postfix None) ++ [] ++ [])).
  { apply w_expr; [|constructor|constructor|exact I]. apply w_opd with (s := SName); auto.
    - reflexivity.
    - constructor; auto.
    - apply w_acons; [exact T| |constructor]. apply w_call; [constructor | exact WG].
    - split; exact I.
    - do 3 right. left. exists w. auto. }
  pose proof (parse_written other kind known is_type makes _ _ [] r u W tr_nil E) as P.
  assert (EQ : [] ++ (([] ++ w ++ (b ++ (40 :: [] ++ t ++ [41]) ++ []) ++ postfix None) ++ [] ++ []) ++ r = w ++ b ++ 40 :: t ++ 41 :: r).
  { cbn [app postfix]. rewrite !app_nil_r. repeat (rewrite <- app_assoc; cbn [app]). reflexivity. }
  rewrite EQ in P. exact P.
Qed.

(** ** C161: prefixes and counting *)

(** Two prefixes in a row are refused, whatever follows. *)
Theorem C161_two_prefixes_refuted : forall q q' b r, In q [PreNot; PrePos; PreNeg; PreBwc] -> In q' [PreNot; PrePos; PreNeg; PreBwc; PreInc; PreDec] -> trivia b ->
  b <> [] \/ In q' [PreNot; PreBwc] -> parse (pre_spelling q ++ b ++ pre_spelling q' ++ r) = Thr.
Proof. apply signs_refused. Qed.
(** Blanks before [++] and [--] are refused. *)
Theorem C161_blank_refuted : forall h t b r c, w_opnd h t -> trivia b -> b <> [] -> ~ In 10 b -> c = 43 \/ c = 45 -> parse (t ++ b ++ c :: c :: r) = Thr.
Proof. apply count_after_blank. Qed.
(** A variable whose name is true or false in capitals cannot be counted. *)
Theorem C161_truth_refuted : forall w r c, truth w -> c = 43 \/ c = 45 -> parse (w ++ c :: c :: r) = Thr.
Proof. apply truth_not_counted. Qed.
(** REFUTED: that a prefix can stand before every numeral: [!] is refused, and [~] before
    numerals with a fraction. *)
Theorem C161_numeral_refuted : forall q v fl b r u, numeral v -> kind (LText v) = Some fl -> In q (PreNot :: if fl then [] else [PreBwc]) -> trivia b ->
  ends_at r u -> parse (pre_spelling q ++ b ++ v ++ r) = Thr.
Proof. apply numeral_refused. Qed.
(** A single prefix before a name, with blanks or not, and [++] or [--] right behind it, are read. *)
Theorem C161_one_prefix_partial : forall q b w r u post, q <> PreInvalid -> trivia b -> (q = PreTypeof -> line_blank (hd 0 b)) ->
  name w -> known w = true -> is_type w = false -> ends_at r u -> (post <> None -> In q [PreNeg; PreBwc]) ->
  parse (pre_spelling q ++ b ++ w ++ postfix post ++ r) = Ok (PSome (PExpr (POpd (Some q) (CWord w) ANil post) PNil PNoTern), u).
Proof.
  intros q b w r u post NQ T LB NW KW TW E PQ.
  assert (W : written (PExpr (POpd (Some q) (CWord w) ANil post) PNil PNoTern) (((pre_spelling q ++ b) ++ w ++ [] ++ postfix post) ++ [] ++ [])).
  { apply w_expr; [|constructor|constructor|exact I]. apply w_opd with (s := SName); auto.
    - split; [exact NQ|]. exists b. auto.
    - constructor; auto.
    - constructor.
    - split; [|exact I]. destruct post; [|exact I]. split; [reflexivity|].
      assert (K : In q [PreNeg; PreBwc]) by (apply PQ; discriminate). cbn in K |- *. intuition congruence. }
  pose proof (parse_written other kind known is_type makes _ _ [] r u W tr_nil E) as P.
  assert (EQ : [] ++ (((pre_spelling q ++ b) ++ w ++ [] ++ postfix post) ++ [] ++ []) ++ r = pre_spelling q ++ b ++ w ++ postfix post ++ r).
  { cbn [app]. rewrite !app_nil_r. repeat (rewrite <- app_assoc; cbn [app]). reflexivity. }
  rewrite EQ in P. exact P.
Qed.

(** ** C162: typeof can be asked of every operand *)

(** A string whose characters are the name of a type is refused. *)
Theorem C162_typeof_refuted : forall v b r u, string_body v -> is_type v = true -> trivia b -> line_blank (hd 0 b) -> ends_at r u ->
  parse (bytes "typeof" ++ b ++ 34 :: v ++ 34 :: r) = Thr.
Proof. apply typeof_refused. Qed.
(** Any other string is an operand of typeof. *)
Theorem C162_typeof_partial : forall v b r u, string_body v -> is_type v = false -> trivia b -> line_blank (hd 0 b) -> ends_at r u ->
  parse (bytes "typeof" ++ b ++ 34 :: v ++ 34 :: r) = Ok (PSome (PExpr (POpd (Some PreTypeof) (CStr v) ANil None) PNil PNoTern), u).
Proof.
  intros v b r u SV TV T LB E.
  assert (W : written (PExpr (POpd (Some PreTypeof) (CStr v) ANil None) PNil PNoTern) (((pre_spelling PreTypeof ++ b) ++ (34 :: v ++ [34]) ++ [] ++ postfix None) ++ [] ++ [])).
  { apply w_expr; [|constructor|constructor|exact I]. apply w_opd with (s := SString); auto.
    - split; [discriminate|]. exists b. auto.
    - constructor; auto.
    - constructor.
    - split; [exact I|]. cbn. tauto. }
  pose proof (parse_written other kind known is_type makes _ _ [] r u W tr_nil E) as P.
  assert (EQ : [] ++ (((pre_spelling PreTypeof ++ b) ++ (34 :: v ++ [34]) ++ [] ++ postfix None) ++ [] ++ []) ++ r = bytes "typeof" ++ b ++ 34 :: v ++ 34 :: r).
  { cbn [app postfix]. rewrite !app_nil_r. repeat (rewrite <- app_assoc; cbn [app]). reflexivity. }
  rewrite EQ in P. exact P.
Qed.
End Claims.

(** ** Cases *)
(** All names are known, String is a type, numbers are integers, nothing else is read. *)
Definition no_other (k : okind) (s : ptr) : res (Z * ptr) := Thr.
Definition ints (l : literal) : option bool := Some true.
Definition all_known (w : list Z) : bool := true.
Definition string_type (w : list Z) : bool := list_eqb w (bytes "String").
Definition no_makes (e : pexpr) : bool := false.
Definition read (s : string) := parse no_other ints all_known string_type no_makes (bytes s).
Definition nm (s : string) : popnd := POpd None (CWord (bytes s)) ANil None.
Definition num (s : string) : popnd := POpd None (CLit (LText (bytes s))) ANil None.

Lemma name_a : name (bytes "a").
Proof.
  split; [exists 97, []; repeat split; constructor|]. split; [destruct k; discriminate|].
  split; [intros [H|H]; inversion H; subst; lia|]. split; [intros [H|H]; discriminate|]. repeat split; discriminate.
Qed.
Lemma name_b : name (bytes "b").
Proof.
  split; [exists 98, []; repeat split; constructor|]. split; [destruct k; discriminate|].
  split; [intros [H|H]; inversion H; subst; lia|]. split; [intros [H|H]; discriminate|]. repeat split; discriminate.
Qed.
Lemma opnd_a : w_opnd no_other ints all_known string_type no_makes (nm "a") (bytes "a").
Proof.
  change (bytes "a") with ([] ++ bytes "a" ++ [] ++ postfix None). apply w_opd with (s := SName); auto; try (constructor; auto using name_a; fail).
Qed.
Lemma opnd_b : w_opnd no_other ints all_known string_type no_makes (nm "b") (bytes "b").
Proof.
  change (bytes "b") with ([] ++ bytes "b" ++ [] ++ postfix None). apply w_opd with (s := SName); auto; try (constructor; auto using name_b; fail).
Qed.
Lemma ends_semi : forall s, ends_at (59 :: s) (59 :: s).
Proof. intros s. exists []. split; [constructor|]. split; [reflexivity|]. left. cbn. tauto. Qed.

(** Objects and functions of other parts of the compiler. *)
Definition five (k : okind) (s : ptr) : res (Z * ptr) :=
  match k with KNew => Ok (7, adv 7 s) | KFunction => Ok (8, adv 12 s) | _ => Thr end.
Example C156_new_case : w_core five ints all_known string_type no_makes (COther KNew 7) SNew (bytes "new A()")
  /\ w_core five ints all_known string_type no_makes (COther KFunction 8) SContainer (bytes "function(){}")
  /\ parse five ints all_known string_type no_makes (bytes "new A();") = Ok (PSome (PExpr (POpd None (COther KNew 7) ANil None) PNil PNoTern), bytes ";")
  /\ parse five ints all_known string_type no_makes (bytes "function(){};") = Ok (PSome (PExpr (POpd None (COther KFunction 8) ANil None) PNil PNoTern), bytes ";").
Proof.
  split; [apply (w_new five ints all_known string_type no_makes 7 (bytes " A()")); [cbn; tauto | reflexivity]|].
  split; [apply (w_function five ints all_known string_type no_makes 8 [] (bytes "){}")); [constructor | cbn; tauto | reflexivity]|].
  split; vm_compute; reflexivity.
Qed.
(** A sum with a comment in it. *)
Example C156_case : written no_other ints all_known string_type no_makes (PExpr (nm "a") (PCons OpAdd (nm "b") PNil) PNoTern) (bytes "a +/*x*/ b")
  /\ read "a +/*x*/ b;" = Ok (PSome (PExpr (nm "a") (PCons OpAdd (nm "b") PNil) PNoTern), bytes ";").
Proof.
  split; [|reflexivity].
  change (bytes "a +/*x*/ b") with (bytes "a" ++ (bytes " " ++ spelling OpAdd ++ bytes "/*x*/ " ++ bytes "b" ++ []) ++ []).
  apply w_expr; [apply opnd_a| |constructor|].
  - apply w_cons; try discriminate; try apply opnd_b.
    + constructor; [auto | constructor].
    + apply (tr_block (bytes "x") [32]); [|constructor; [auto | constructor]]. intros (p & q & H). destruct p as [|? [|? p]]; discriminate.
    + constructor.
    + unfold glue. cbn. split; [lia|]. split; [lia|]. split; [intros [H|H]; discriminate | intros [H|H]; discriminate].
  - right. split; [|exact I]. cbn. intuition discriminate.
Qed.
(** A larger one: calls, accesses, prefixes, a conditional and assignments. *)
Example C157_case :
  read " x.y[ i+1 ] = !f( a , 2, ) ? -(b) : c++ // z
 " = Ok (PSome (PExpr (POpd None (CWord (bytes "x")) (ACons (PDot (bytes "y")) (ACons (PIdx (PSome (PExpr (nm "i") (PCons OpAdd (num "1") PNil) PNoTern))) ANil)) None)
      (PCons OpAssign (POpd (Some PreNot) (CWord (bytes "f")) (ACons (PCall (GCons (PExpr (nm "a") PNil PNoTern) (GCons (PExpr (num "2") PNil PNoTern) GNil))) ANil) None) PNil)
      (PTern (PExpr (POpd (Some PreNeg) (CParen (PExpr (nm "b") PNil PNoTern)) ANil None) PNil PNoTern)
             (PSome (PExpr (POpd None (CWord (bytes "c")) ANil (Some true)) PNil PNoTern)))), [])
  /\ (forall k s x r, no_other k s = Ok (x, r) -> exists t, s = t ++ r) /\ read " // only blanks" = Ok (PNone, []).
Proof. repeat split; try reflexivity. discriminate. Qed.
Example C158_case : read "a + " = UB /\ read "-" = UB /\ read "a + b" <> UB /\ read "(a" = Thr
  /\ (forall k s, match no_other k s with Ok (_, r) => exists t, s = t ++ r | Thr => True | _ => False end).
Proof. repeat split; try reflexivity. discriminate. Qed.
Example C159_case : read "a[ ];" = Ok (PSome (PExpr (POpd None (CWord (bytes "a")) (ACons (PIdx PNone) ANil) None) PNil PNoTern), bytes ";")
  /\ read "a[];" = Thr /\ read "a ? b : ;" = Ok (PSome (PExpr (nm "a") PNil (PTern (PExpr (nm "b") PNil PNoTern) PNone)), bytes ";")
  /\ name (bytes "a") /\ read "( );" = Thr /\ read "f( );" <> Thr.
Proof. repeat split; try reflexivity; try apply name_a. discriminate. Qed.
Example C160_case :
  read "a
b;" = Ok (PSome (PExpr (nm "a") PNil PNoTern), bytes "b;")
  /\ read "a
- b;" = Ok (PSome (PExpr (nm "a") (PCons OpSub (nm "b") PNil) PNoTern), bytes ";")
  /\ read "a
(b);" = Ok (PSome (PExpr (POpd None (CWord (bytes "a")) (ACons (PCall (GCons (PExpr (nm "b") PNil PNoTern) GNil)) ANil) None) PNil PNoTern), bytes ";")
  /\ new_operand (bytes "b;").
Proof.
  split; [reflexivity|]. split; [reflexivity|]. split; [reflexivity|]. split; [intros [r H]; discriminate|].
  left. split; [reflexivity|]. intros o r [-> | ->] H; discriminate.
Qed.
Example C161_case : read "!!a;" = Thr /\ read "- -a;" = Thr /\ read "-(-a);" <> Thr /\ read "a ++;" = Thr
  /\ read "a++;" = Ok (PSome (PExpr (POpd None (CWord (bytes "a")) ANil (Some true)) PNil PNoTern), bytes ";")
  /\ truth (bytes "True") /\ read "True++;" = Thr /\ read "!1;" = Thr /\ parse no_other (fun _ => Some false) all_known string_type no_makes (bytes "~1.5;") = Thr
  /\ parse no_other (fun _ => Some false) all_known string_type no_makes (bytes "-1.5;") <> Thr
  /\ w_opnd no_other ints all_known string_type no_makes (nm "a") (bytes "a").
Proof.
  repeat split; try reflexivity; try discriminate; try apply opnd_a.
  left. unfold same_letters. cbn. constructor; [right; lia|]. repeat (constructor; [left; split; [reflexivity | lia]|]). constructor.
Qed.
Example C162_case : read "typeof ""String"";" = Thr
  /\ read "typeof ""string"";" = Ok (PSome (PExpr (POpd (Some PreTypeof) (CStr (bytes "string")) ANil None) PNil PNoTern), bytes ";").
Proof. split; reflexivity. Qed.

Print Assumptions C156_reading.
Print Assumptions C156_one_meaning.
Print Assumptions C156_layout.
Print Assumptions C157_read_is_written.
Print Assumptions C157_nothing_read.
Print Assumptions C158_reading_ends.
Print Assumptions C158_inside_partial.
Print Assumptions C158_operator_at_end_refuted.
Print Assumptions C158_prefix_at_end_refuted.
Print Assumptions C159_index_refuted.
Print Assumptions C159_no_blank_partial.
Print Assumptions C159_else_refuted.
Print Assumptions C160_next_line_partial.
Print Assumptions C160_sign_refuted.
Print Assumptions C160_parenthesis_refuted.
Print Assumptions C161_two_prefixes_refuted.
Print Assumptions C161_blank_refuted.
Print Assumptions C161_truth_refuted.
Print Assumptions C161_numeral_refuted.
Print Assumptions C161_one_prefix_partial.
Print Assumptions C162_typeof_refuted.
Print Assumptions C162_typeof_partial.
