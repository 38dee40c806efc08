(** * Properties of literals, new and conditions *)
From Coq Require Import List ZArith Bool Lia String.
From Verif Require Import Base StringModel LexModel LexSpec ParseModel ParseSpec ParseLex ParseProofs ParseMain ParseSound ParseTotal ParseProps LitModel LitSpec LitProofs LitSound.
Import ListNotations.
Local Open Scope Z_scope.

Section Claims.
Variable other : okind -> ptr -> res (Z * ptr).
Variable kind : literal -> option bool.
Variable known is_type : list Z -> bool.
Variable makes : pexpr -> bool.
Variable make : list Z -> option bool.
Variable bare : list Z -> bool.
Variable has_ctor : list Z -> nat -> bool.
Notation parse := (parse other kind known is_type makes).
Notation written := (written other kind known is_type makes).
Notation read_array := (read_array other kind known is_type makes).
Notation read_object := (read_object other kind known is_type makes).
Notation condition := (condition other kind known is_type makes).
Notation read_new := (read_new other kind known is_type makes make bare has_ctor).

(** ** C167: array literals *)

(** Every text of an array is read as the array of its elements in order, up to the bracket. *)
Theorem C167_reading : forall es t r, array_text written es t -> read_array (t ++ r) = Ok (array_code es, r).
Proof. apply array_read. Qed.
(** What has been read is an array of expressions that stand there in this order; no element
    is missing. *)
Theorem C167_read_is_written : (forall k s x r, other k s = Ok (x, r) -> exists t, s = t ++ r) ->
  forall s c u, no_lone_cr s -> read_array s = Ok (c, u) ->
  exists b es t, s = b ++ t ++ u /\ trivia b /\ array_text (spelled other) es t /\ c = array_code es.
Proof. intros OS. apply array_sound. exact OS. Qed.
(** Whatever the text is, reading ends; what is left is an end of the text. *)
Theorem C167_reading_ends : (forall k s, match other k s with Ok (_, r) => exists t, s = t ++ r | Thr => True | _ => False end) ->
  forall s, match read_array s with Ok (_, r) => exists t, s = t ++ r | Loop => False | _ => True end.
Proof.
  intros OS s. assert (G : forall k s, good s snd False (other k s)).
  { intros k s0. specialize (OS k s0). destruct (other k s0) as [[x r]| | |]; auto. }
  pose proof (array_ends other kind known is_type makes G s) as P. destruct (read_array s) as [[c r]| | |]; auto.
Qed.
(** The code builds the array: the elements are evaluated from left to right, once each, and
    the array has their values in this order. *)
Theorem C167_value : forall (V W : Type) (ev : pexpr -> W -> option (V * W)) es c s w,
  run V W ev (array_code es ++ c) s w =
  match evals V W ev es w with Some (vs, w') => run V W ev c (BArr V vs :: s) w' | None => None end.
Proof. intros V W ev es c s w. apply (run_items V W ev es c [] s w). Qed.
(** REFUTED: that a comma may stand behind the last element as it may behind the last argument
    of a call. *)
Theorem C167_comma_refuted : forall e es b1 t b2 m b r, trivia b1 -> written e t -> trivia b2 -> more_items written es m -> trivia b ->
  read_array (91 :: b1 ++ t ++ b2 ++ m ++ 44 :: b ++ 93 :: r) = Thr.
Proof. apply array_comma. Qed.

(** ** C168: object literals *)

(** Every text of an object is read as its pairs in order.  Missing: the keys of the theorems
    below. *)
Theorem C168_reading_partial : forall ps t r, object_text key_text written ps t -> read_object (t ++ r) = Ok (object_code ps, r).
Proof. apply object_read. Qed.
Theorem C168_read_is_written : (forall k s x r, other k s = Ok (x, r) -> exists t, s = t ++ r) ->
  forall s c u, no_lone_cr s -> read_object s = Ok (c, u) ->
  exists ps t, s = t ++ u /\ object_text any_key (spelled other) ps t /\ c = object_code ps.
Proof. intros OS. apply object_sound. exact OS. Qed.
Theorem C168_reading_ends : (forall k s, match other k s with Ok (_, r) => exists t, s = t ++ r | Thr => True | _ => False end) ->
  forall s, match read_object s with Ok (_, r) => exists t, s = t ++ r | Loop => False | _ => True end.
Proof.
  intros OS s. assert (G : forall k s, good s snd False (other k s)).
  { intros k s0. specialize (OS k s0). destruct (other k s0) as [[x r]| | |]; auto. }
  pose proof (object_ends other kind known is_type makes G s) as P. destruct (read_object s) as [[c r]| | |]; auto.
Qed.
(** The code builds the object: the values are evaluated from left to right, once each, every
    key is there once, and the last pair with a key decides. *)
Theorem C168_value : forall (V W : Type) (ev : pexpr -> W -> option (V * W)) ps c s w,
  exists build, run V W ev (object_code ps ++ c) s w =
    match evals V W ev (map snd ps) w with Some (vs, w') => run V W ev c (BObj V (build vs) :: s) w' | None => None end /\
  forall vs, NoDup (map fst (build vs)) /\ forall k, find_key V k (build vs) = last_value V k (map fst ps) vs.
Proof.
  intros V W ev ps c s w. exists (fun vs => puts V (map fst ps) vs []). split; [apply (run_pairs V W ev ps c [] s w)|].
  intros vs. split; [apply puts_keys; constructor|]. intros k. rewrite find_puts. destruct (last_value V k (map fst ps) vs); reflexivity.
Qed.
(** REFUTED: that an unclosed key is reported.  The null pointer is read. *)
Theorem C168_open_key_refuted : forall b c v x, trivia b -> c <> 0 -> c <> 34 -> ~ In 10 (c :: v) ->
  (forall p q, c :: v = p ++ 34 :: q -> exists p', p = p' ++ [92]) -> x = [] \/ hd 0 x = 10 ->
  read_object (123 :: b ++ 34 :: c :: v ++ x) = UB.
Proof. apply open_key. Qed.
(** REFUTED: that the empty string is a key. *)
Theorem C168_empty_key_refuted : forall b x, trivia b -> read_object (123 :: b ++ 34 :: 34 :: x) = Thr.
Proof. apply empty_key. Qed.
(** REFUTED: that keywords are no keys.  They are if a comment touches them. *)
Theorem C168_keyword_refuted : forall kw x b e t b2 b3 r, kw <> KwVarArgs -> ~ In 10 x -> trivia b -> written e t -> trivia b2 -> trivia b3 ->
  read_object (123 :: kw_spelling kw ++ bytes "//" ++ x ++ 10 :: b ++ 58 :: b2 ++ t ++ b3 ++ 125 :: r) = Ok (object_code [(kw_spelling kw, e)], r).
Proof. intros kw x b e t b2 b3 r V X B W B2 B3. apply (keyword_key other kind known is_type makes kw x _ b e t b2 b3 r V X B W B2 B3 eq_refl). Qed.

(** ** C169: new *)

(** new with the name of a type creates an object of it and calls its constructor with the
    arguments in order.  Missing: conditionals as arguments. *)
Theorem C169_arguments_partial : forall n b1 b2 b3 es t r, In (hd 0 b1) [32; 9; 10; 13] -> trivia b1 -> word n -> trivia b2 -> trivia b3 -> arg_text written es t ->
  make n = Some true -> has_ctor n (List.length es) = true -> bare n = false \/ es <> [] ->
  read_new (bytes "new" ++ b1 ++ n ++ b2 ++ 40 :: b3 ++ t ++ 41 :: r) = Ok (new_code n es, r).
Proof.
  intros n b1 b2 b3 es t r LB B1 D B2 B3 A Mk Ct E. rewrite (new_read _ _ _ _ _ make bare has_ctor n n b1 b2 b3 es t r); auto; [|constructor; exact D].
  destruct E as [->|E]; [reflexivity|]. destruct t as [|c t]; [|rewrite andb_false_r; reflexivity]. exfalso.
  inversion A as [|e t b W P B|e es' t b0 b4 m W P B B' A']; subst; [congruence|..];
    match goal with H : _ ++ _ = [] |- _ => apply app_eq_nil in H; destruct H as [-> _]; destruct (written_opens other kind known is_type makes _ _ W) as (? & ? & ? & _); discriminate end.
Qed.
(** A native type without constructors needs none. *)
Theorem C169_bare : forall n b1 b2 b3 r, In (hd 0 b1) [32; 9; 10; 13] -> trivia b1 -> word n -> trivia b2 -> trivia b3 ->
  make n = Some true -> bare n = true -> has_ctor n 0%nat = true -> read_new (bytes "new" ++ b1 ++ n ++ b2 ++ 40 :: b3 ++ 41 :: r) = Ok ([ENewType n], r).
Proof.
  intros n b1 b2 b3 r LB B1 D B2 B3 Mk Ba Ct. pose proof (new_read other kind known is_type makes make bare has_ctor n n b1 b2 b3 [] [] r LB B1 (d_one n D) B2 B3 (g_none _) Mk Ct) as H.
  rewrite Ba in H. exact H.
Qed.
(** A type that cannot be instantiated is refused, whatever stands in the parentheses. *)
Theorem C169_not_instantiable : forall l n b1 b2 v, In (hd 0 b1) [32; 9; 10; 13] -> trivia b1 -> dotted l n -> trivia b2 -> make l = Some false ->
  read_new (bytes "new" ++ b1 ++ n ++ b2 ++ 40 :: v) = Thr.
Proof. apply new_refused. Qed.
(** So are arguments for which the type has no constructor. *)
Theorem C169_no_constructor : forall l n b1 b2 b3 es t r, In (hd 0 b1) [32; 9; 10; 13] -> trivia b1 -> dotted l n -> trivia b2 -> trivia b3 -> arg_text written es t -> es <> [] ->
  make l = Some true -> has_ctor l (List.length es) = false -> read_new (bytes "new" ++ b1 ++ n ++ b2 ++ 40 :: b3 ++ t ++ 41 :: r) = Thr.
Proof. apply new_no_ctor. Qed.
(** REFUTED: that a.b.T names a member.  If T is a type everything before it is ignored,
    whether it exists or not. *)
Theorem C169_prefix_refuted : forall l n b1 b2 b3 es t r, In (hd 0 b1) [32; 9; 10; 13] -> trivia b1 -> dotted l n -> word l -> trivia b2 -> trivia b3 -> arg_text written es t ->
  make l = Some true -> has_ctor l (List.length es) = true ->
  read_new (bytes "new" ++ b1 ++ n ++ b2 ++ 40 :: b3 ++ t ++ 41 :: r) = read_new (bytes "new" ++ b1 ++ l ++ b2 ++ 40 :: b3 ++ t ++ 41 :: r) /\
  exists c, read_new (bytes "new" ++ b1 ++ n ++ b2 ++ 40 :: b3 ++ t ++ 41 :: r) = Ok (ENewType l :: c, r).
Proof.
  intros l n b1 b2 b3 es t r LB B1 D L B2 B3 A Mk Ct. split.
  - rewrite (new_read _ _ _ _ _ make bare has_ctor l n b1 b2 b3 es t r), (new_read _ _ _ _ _ make bare has_ctor l l b1 b2 b3 es t r); auto. constructor; exact L.
  - rewrite (new_read _ _ _ _ _ make bare has_ctor l n b1 b2 b3 es t r); auto. destruct (bare l && _); eexists; reflexivity.
Qed.
(** REFUTED: that a conditional is an argument. *)
Theorem C169_conditional_refuted : forall l n b1 b2 b3 h tl e1 e2 t b u, In (hd 0 b1) [32; 9; 10; 13] -> trivia b1 -> dotted l n -> trivia b2 -> trivia b3 -> make l = Some true ->
  written (PExpr h tl (PTern e1 e2)) t -> trivia b -> closing u -> read_new (bytes "new" ++ b1 ++ n ++ b2 ++ 40 :: b3 ++ t ++ b ++ u) = Thr.
Proof. apply new_tern. Qed.

(** ** C170: the conditions of if, while, do-while and switch *)

(** An expression in parentheses is the condition.  Missing: conditionals, see below. *)
Theorem C170_reading_partial : forall b e t b2 r, trivia b -> written e t -> plain_expr e -> trivia b2 ->
  condition (40 :: b ++ t ++ b2 ++ 41 :: r) = Ok (PSome e, 41 :: r).
Proof.
  intros b e t b2 r B W P B2. unfold LitModel.condition. cbn [hd0 hd]. change (negb (40 =? 40)) with false. cbv iota. rewrite adv1. apply until_iff; [cbn; lia|].
  split; [|split; [cbn; tauto | exact P]]. apply parse_written; auto. apply closing_end; [exact B2 | unfold closing; cbn; tauto].
Qed.
(** What has been read as a condition is an expression without [?:], behind a parenthesis and
    before one; or there are only blanks. *)
Theorem C170_read_is_written : (forall k s x r, other k s = Ok (x, r) -> exists t, s = t ++ r) ->
  forall s x u, no_lone_cr s -> condition s = Ok (x, u) ->
  exists b t b2 r, s = 40 :: b ++ t ++ b2 ++ u /\ u = 41 :: r /\ trivia b /\ trivia b2 /\
    match x with PSome e => plain_expr e /\ spelled other e t | PNone => t = [] end.
Proof.
  intros OS s x u N H. unfold LitModel.condition in H. destruct (Z.eqb_spec (hd0 s) 40) as [E|]; [|discriminate]. cbn [negb] in H. apply until_iff in H; [|cbn; lia].
  destruct H as (H & I & P). assert (EV := adv1_hd s 40 E ltac:(lia)). assert (N1 := N). rewrite EV in N1. apply (nlc_suffix [40]) in N1.
  assert (EU : u = 41 :: adv 1 u) by (apply adv1_hd; [cbn in I; destruct I as [I|[]]; symmetry; exact I | lia]).
  assert (NU : u <> []) by (rewrite EU; discriminate). destruct x as [|e].
  - destruct (C157_nothing_read other kind known is_type makes _ _ OS N1 H) as (b & E1 & SK). exists b, [], [], (adv 1 u).
    split; [rewrite EV, E1; reflexivity|]. split; [exact EU|]. split; [apply (skipped_trivia _ _ SK NU)|]. split; [constructor | reflexivity].
  - destruct (C157_read_is_written other kind known is_type makes _ _ _ OS N1 H) as (b & t & r & E1 & TB & SP & SK). exists b, t, r, (adv 1 u).
    split; [rewrite EV, E1; reflexivity|]. split; [exact EU|]. split; [exact TB|]. split; [apply (skipped_trivia _ _ SK NU) | auto].
Qed.
(** REFUTED: that c ? x : y is a condition. *)
Theorem C170_conditional_refuted : forall b h tl e1 e2 t b2 r, trivia b -> written (PExpr h tl (PTern e1 e2)) t -> trivia b2 ->
  condition (40 :: b ++ t ++ b2 ++ 41 :: r) = Thr.
Proof.
  intros b h tl e1 e2 t b2 r B W B2. unfold LitModel.condition. cbn [hd0 hd]. change (negb (40 =? 40)) with false. cbv iota. rewrite adv1.
  apply (until_tern _ _ _ _ _ [41] _ h tl e1 e2 (41 :: r)); [cbn; lia|]. apply parse_written; auto. apply closing_end; [exact B2 | unfold closing; cbn; tauto].
Qed.
(** REFUTED: that there is a condition.  Blanks are enough: the jump is compiled without a
    value to test. *)
Theorem C170_blank_refuted : forall b r, trivia b -> b <> [] -> condition (40 :: b ++ 41 :: r) = Ok (PNone, 41 :: r).
Proof.
  intros b r B NB. unfold LitModel.condition. cbn [hd0 hd]. change (negb (40 =? 40)) with false. cbv iota. rewrite adv1. unfold parse_until.
  rewrite (blanks_char b 41) by (auto; cbn; lia). cbn [rbind]. destruct b as [|c b]; [congruence|]. pose proof (trivia_hd0 _ B ltac:(discriminate)) as H. cbn in H.
  assert (existsb (Z.eqb (hd0 ((c :: b) ++ 41 :: r))) [41; 44; 93; 0; 125] = false) as -> by (destruct H as [<-|[<-|[<-|[<-|[<-|[]]]]]]; reflexivity).
  assert (EH : ends_here (41 :: r) = Ok true).
  { unfold ends_here. destruct (LexTok.is_keyword_spec (41 :: r)) as (o & -> & S). destruct o as [k|]; [exfalso; destruct (proj1 (S k) eq_refl) as (q & E & _); destruct k; discriminate|]. reflexivity. }
  rewrite EH. reflexivity.
Qed.
Theorem C170_no_blank_partial : forall r, condition (40 :: 41 :: r) = Thr.
Proof. intros r. unfold LitModel.condition. cbn [hd0 hd]. change (negb (40 =? 40)) with false. cbv iota. rewrite adv1. unfold parse_until. rewrite blanks_self by (cbn; lia). reflexivity. Qed.
End Claims.

(** ** Cases *)
Definition is_A (w : list Z) : option bool := if list_eqb w (bytes "A") then Some true else if list_eqb w (bytes "Int") then Some false else None.
Definition rarray (s : string) := read_array no_other ints all_known string_type no_makes (bytes s).
Definition robject (s : string) := read_object no_other ints all_known string_type no_makes (bytes s).
Definition rcond (s : string) := condition no_other ints all_known string_type no_makes (bytes s).
Definition rnew (s : string) := read_new no_other ints all_known string_type no_makes is_A (fun _ => false) (fun _ n => (n <? 3)%nat) (bytes s).
Definition ea := PExpr (nm "a") PNil PNoTern.
Definition eb := PExpr (nm "b") PNil PNoTern.
Lemma written_a : written no_other ints all_known string_type no_makes ea (bytes "a").
Proof. change (bytes "a") with (bytes "a" ++ [] ++ []). constructor; [apply opnd_a | constructor | constructor | constructor]. Qed.
Lemma written_b : written no_other ints all_known string_type no_makes eb (bytes "b").
Proof. change (bytes "b") with (bytes "b" ++ [] ++ []). constructor; [apply opnd_b | constructor | constructor | constructor]. Qed.
Definition tern_ab := PExpr (nm "a") PNil (PTern eb (PSome ea)).
Lemma written_tern : written no_other ints all_known string_type no_makes tern_ab (bytes "a?b:a").
Proof.
  change (bytes "a?b:a") with (bytes "a" ++ [] ++ ([] ++ 63 :: [] ++ bytes "b" ++ [] ++ 58 :: [] ++ bytes "a")).
  constructor; [apply opnd_a | constructor | | constructor]. constructor; try constructor; [apply written_b | apply written_a].
Qed.

Example C167_case : array_text (written no_other ints all_known string_type no_makes) [ea; eb] (bytes "[ a, b ]")
  /\ rarray "[ a, b ];" = Ok ([ENewArray; EExpr (PSome ea); EItem; EExpr (PSome eb); EItem], bytes ";")
  /\ rarray "[ ]" = Ok ([ENewArray], []) /\ rarray "[a,]" = Thr /\ rarray "[,a]" = Thr /\ rarray "[a" = Thr /\ rarray "[if]" = Thr.
Proof.
  split; [|repeat split; vm_compute; reflexivity].
  change (bytes "[ a, b ]") with (91 :: [32] ++ bytes "a" ++ [] ++ (44 :: [32] ++ bytes "b" ++ [32] ++ []) ++ [93]).
  constructor; [constructor; [auto | constructor] | apply written_a | constructor|]. constructor; [constructor; [auto | constructor] | apply written_b | constructor; [auto | constructor] | constructor].
Qed.
Example C168_case : object_text key_text (written no_other ints all_known string_type no_makes) [(bytes "x", ea); (bytes "y z", eb)] (bytes "{x: a, ""y z"":b}")
  /\ robject "{x: a, ""y z"":b};" = Ok ([ENewObject; EKey (bytes "x"); EExpr (PSome ea); EPair; EKey (bytes "y z"); EExpr (PSome eb); EPair], bytes ";")
  /\ robject "{}" = Ok ([ENewObject], []) /\ robject "{x:a,}" = Thr /\ robject "{if:a}" = Thr /\ robject "{x}" = Thr /\ robject "{""abc" = UB /\ robject "{"""":a}" = Thr
  /\ find_key Z (bytes "x") (puts Z [bytes "x"; bytes "y"; bytes "x"] [1; 2; 3] []) = Some 3.
Proof.
  split; [|repeat split; vm_compute; reflexivity].
  change (bytes "{x: a, ""y z"":b}") with (123 :: [] ++ (bytes "x" ++ [] ++ 58 :: [32] ++ bytes "a" ++ []) ++ (44 :: [32] ++ ((34 :: bytes "y z" ++ [34]) ++ [] ++ 58 :: [] ++ bytes "b" ++ []) ++ []) ++ [125]).
  assert (B : trivia [32]) by (constructor; [auto | constructor]).
  constructor; [constructor | |].
  - constructor; try (constructor; fail); auto using written_a. left. split; [exists 120, []; repeat split; constructor|]. split; [destruct kw; discriminate | reflexivity].
  - constructor; [exact B | | constructor]. constructor; try (constructor; fail); auto using written_b. right. split; [|split; [discriminate | reflexivity]].
    split; [intros [H|[H|[H|[]]]]; discriminate|].
    split; [intros p q H; destruct p as [|? [|? [|? [|? ?]]]]; discriminate | intros p H; destruct p as [|? [|? [|? [|? ?]]]]; discriminate].
Qed.
Example C169_case : arg_text (written no_other ints all_known string_type no_makes) [ea; eb] (bytes "a, b,")
  /\ rnew "new A(a, b,);" = Ok ([ENewType (bytes "A"); ELoadCtor; EExpr (PSome ea); EExpr (PSome eb); ECtorCall 2], bytes ";")
  /\ rnew "new x.y.A(a);" = Ok ([ENewType (bytes "A"); ELoadCtor; EExpr (PSome ea); ECtorCall 1], bytes ";")
  /\ rnew "new A(a?b:a)" = Thr /\ rnew "new B(a);" = Ok ([EExpr (PSome (PExpr (nm "B") PNil PNoTern)); ENewValue; EExpr (PSome ea); ECtorCall 1], bytes ";")
  /\ rnew "new A" = Thr /\ rnew "new Int(a)" = Thr /\ is_A (bytes "Int") = Some false /\ rnew "new A(a,b,a)" = Thr /\ dotted (bytes "A") (bytes "x.y.A").
Proof.
  assert (X : word (bytes "A")) by (exists 65, []; repeat split; constructor). assert (Y : word (bytes "x")) by (exists 120, []; repeat split; constructor). assert (Z : word (bytes "y")) by (exists 121, []; repeat split; constructor).
  split; [|split; [vm_compute; reflexivity|]; split; [vm_compute; reflexivity|]; split; [vm_compute; reflexivity|]; split; [vm_compute; reflexivity|]; split; [vm_compute; reflexivity|]; split; [vm_compute; reflexivity|]; split; [vm_compute; reflexivity|]; split; [vm_compute; reflexivity|]].
  - change (bytes "a, b,") with (bytes "a" ++ [] ++ 44 :: [32] ++ (bytes "b" ++ [] ++ 44 :: [] ++ [])).
    constructor; [apply written_a | exact I | constructor | constructor; [auto | constructor]|]. constructor; [apply written_b | exact I | constructor | constructor | constructor].
  - change (bytes "x.y.A") with (bytes "x" ++ [] ++ 46 :: [] ++ (bytes "y" ++ [] ++ 46 :: [] ++ bytes "A")). repeat (constructor; auto).
Qed.
Example C170_case : plain_expr ea /\ rcond "( a ) x" = Ok (PSome ea, bytes ") x") /\ rcond "(a?b:a)" = Thr /\ rcond "((a?b:a))" <> Thr
  /\ rcond "( )" = Ok (PNone, bytes ")") /\ rcond "()" = Thr /\ rcond "(a;b)" = Thr.
Proof. split; [exact I|]. repeat split; vm_compute; try reflexivity; discriminate. Qed.

Print Assumptions C167_reading.
Print Assumptions C167_read_is_written.
Print Assumptions C167_reading_ends.
Print Assumptions C167_value.
Print Assumptions C167_comma_refuted.
Print Assumptions C168_reading_partial.
Print Assumptions C168_read_is_written.
Print Assumptions C168_reading_ends.
Print Assumptions C168_value.
Print Assumptions C168_open_key_refuted.
Print Assumptions C168_empty_key_refuted.
Print Assumptions C168_keyword_refuted.
Print Assumptions C169_arguments_partial.
Print Assumptions C169_bare.
Print Assumptions C169_not_instantiable.
Print Assumptions C169_no_constructor.
Print Assumptions C169_prefix_refuted.
Print Assumptions C169_conditional_refuted.
Print Assumptions C170_reading_partial.
Print Assumptions C170_read_is_written.
Print Assumptions C170_conditional_refuted.
Print Assumptions C170_blank_refuted.
Print Assumptions C170_no_blank_partial.
