(** * Theorems about JSON. *)
From Coq Require Import List ZArith Bool Lia.
From Verif Require Import Base FloatModel FloatProofs StringModel StringProofs IntegerModel
  JsonModel JsonSpec JsonProofs JsonGram JsonNum JsonRound.
Import ListNotations.
Open Scope Z_scope.

(** ** C56: round trip *)

(** C56. Every value built from booleans, integers below 2^24, floats that are such an integer
    over 64, strings without quote, backslash, newline and return, arrays, and objects with
    distinct names is serialised, and deserialising the text gives an equal value.  Integers come
    back as floats of the same value.  Missing: the values of the refutations below; [other]
    stands for strtof on texts the serialiser does not write. *)
Theorem C56_round_trip_partial : forall other fm v, jsonable v ->
  exists t v', json_serialize fm v = Ok t /\ same v v' /\
    forall s, srep s t -> json_deserialize other s = Ok v'.
Proof.
  intros other fm v J. destruct (all_good other v J fm 0%nat) as (t & v' & E & T & Q & N).
  exists t, v'. split; [exact E|]. split; [exact Q|]. intros s R.
  rewrite (json_deserialize_plain other s t R N).
  rewrite <- (app_nil_r t). change (t ++ []) with ([] ++ t ++ []).
  apply (parse_text (fparse other) [] t v' [] []); auto; try reflexivity; [constructor|now left].
Qed.
Print Assumptions C56_round_trip_partial.

(** {"a":[1,-2.5],"b":{"c":"x y"},"d":true} *)
Definition C56_sample : jval :=
  JO [([97], JA [JI 1; JF (fdiv (of_int (-160)) (of_int 64))]); ([98], JO [([99], JS [120; 32; 121])]); ([100], JB true)].
Example C56_case : jsonable C56_sample /\
  json_serialize false C56_sample =
    Ok [123; 34; 97; 34; 58; 91; 49; 44; 45; 50; 46; 53; 48; 48; 48; 48; 48; 93; 44; 34; 98; 34; 58; 123; 34; 99;
        34; 58; 34; 120; 32; 121; 34; 125; 44; 34; 100; 34; 58; 116; 114; 117; 101; 125].
Proof.
  split; [|vm_compute; reflexivity]. cbn. repeat split; try lia; repeat constructor; cbn; try lia; intuition discriminate || eauto.
  exists (-160). split; [cbn; lia|reflexivity].
Qed.

(** C56 fails: integers over 2^24 change, they are read back as binary32 numbers. *)
Theorem C56_large_integer_refuted : forall other fm,
  exists t, json_serialize fm (JI 16777217) = Ok t /\
    forall s, srep s t -> json_deserialize other s = Ok (JF (of_int 16777216)) /\
      of_int 16777216 <> of_int 16777217.
Proof.
  intros other fm. exists [49; 54; 55; 55; 55; 50; 49; 55]. split; [destruct fm; vm_compute; reflexivity|].
  intros s R. split; [|vm_compute; discriminate].
  rewrite (json_deserialize_plain other s _ R) by (cbn; lia). vm_compute. reflexivity.
Qed.
Print Assumptions C56_large_integer_refuted.

(** C56 fails: one tenth changes. *)
Theorem C56_tenth_refuted : forall other fm,
  exists t f, json_serialize fm (JF (fdiv (of_int 1) (of_int 10))) = Ok t /\
    f <> fdiv (of_int 1) (of_int 10) /\
    forall s, srep s t -> json_deserialize other s = Ok (JF f).
Proof.
  intros other fm. exists [48; 46; 49; 48; 48; 48; 48; 48], (widen (near32 false 100000 1000000)).
  split; [destruct fm; vm_compute; reflexivity|]. split; [vm_compute; discriminate|].
  intros s R. rewrite (json_deserialize_plain other s _ R) by (cbn; lia). vm_compute. reflexivity.
Qed.
Print Assumptions C56_tenth_refuted.

Lemma plain_92 a : plain_str a -> ~ In 92 a.
Proof. intros F H. unfold plain_str in F. rewrite Forall_forall in F. destruct (F _ H) as (_ & _ & _ & K). congruence. Qed.

(** C56 fails: a string is cut at a quote in it. *)
Theorem C56_quote_refuted : forall other fm a b, plain_str a -> plain_str b -> solid (hd 34 b) ->
  exists t, json_serialize fm (JS (a ++ 34 :: b)) = Ok t /\
    forall s, srep s t -> json_deserialize other s = Ok (JS a).
Proof.
  intros other fm a b Pa Pb Hb. exists (34 :: (a ++ 34 :: b) ++ [34]). split; [reflexivity|].
  intros s R. rewrite (json_deserialize_plain other s _ R).
  2:{ pose proof (plain_92 a Pa). pose proof (plain_92 b Pb). cbn [app]. rewrite <- app_assoc. cbn [app].
      intros [H1|H1]; [lia|]. apply in_app_or in H1 as [H1|[H1|H1]]; [auto|lia|].
      apply in_app_or in H1 as [H1|[H1|[]]]; [auto|lia]. }
  replace (34 :: (a ++ 34 :: b) ++ [34]) with (34 :: a ++ 34 :: (b ++ [34])) by (rewrite <- app_assoc; reflexivity).
  assert (E : blanks (b ++ [34]) = Ok (b ++ [34])).
  { destruct b as [|c b]; cbn [app hd] in *; apply solid_stay; auto. }
  unfold j_parse. rewrite Nat.add_comm. cbn [Nat.add j_val]. rewrite solid_stay by (unfold solid; lia). cbn [rbind hd].
  change (34 =? 91) with false. change (34 =? 123) with false. cbn match.
  unfold j_scalar. cbn [hd]. change (34 =? 34) with true. cbn match.
  rewrite (read_string_ok a (b ++ [34]) (b ++ [34]) (plain_body a Pa) E). reflexivity.
Qed.
Print Assumptions C56_quote_refuted.
Example C56_quote_case : plain_str [97] /\ plain_str [98] /\ solid (hd 34 [98]).
Proof. repeat split; repeat constructor; cbn; lia. Qed.

Lemma str_body_stop a c r : plain_str a -> c = 10 \/ c = 13 -> forall p, str_body p (a ++ c :: r) = (a, c :: r).
Proof.
  intros Pa Hc. induction Pa as [|x a (H1 & H2 & H3 & H4) Pa IH]; intros p; cbn [app str_body].
  - destruct Hc as [-> | ->]; reflexivity.
  - destruct (Z.eqb_spec x 10), (Z.eqb_spec x 13), (Z.eqb_spec x 34); try congruence. cbn [orb andb]. now rewrite IH.
Qed.
Lemma parse_stop num a c r : plain_str a -> c = 10 \/ c = 13 -> j_parse num (34 :: a ++ c :: r) = Thr.
Proof.
  intros Pa Hc. unfold j_parse. rewrite Nat.add_comm. cbn [Nat.add j_val]. rewrite solid_stay by (unfold solid; lia).
  cbn [rbind hd]. change (34 =? 91) with false. change (34 =? 123) with false. cbn match.
  unfold j_scalar, read_string. cbn [hd tl]. change (34 =? 34) with true. cbn match.
  rewrite (str_body_stop a c r Pa Hc). destruct Hc as [-> | ->]; reflexivity.
Qed.

(** C56 fails: a string with a newline or a return is written as it is, and refused when read. *)
Theorem C56_newline_refuted : forall other fm a b c, plain_str a -> plain_str b -> c = 10 \/ c = 13 ->
  exists t, json_serialize fm (JS (a ++ c :: b)) = Ok t /\
    forall s, srep s t -> json_deserialize other s = Thr.
Proof.
  intros other fm a b c Pa Pb Hc. exists (34 :: (a ++ c :: b) ++ [34]). split; [reflexivity|].
  intros s R. rewrite (json_deserialize_plain other s _ R).
  2:{ pose proof (plain_92 a Pa). pose proof (plain_92 b Pb). cbn [app]. rewrite <- app_assoc. cbn [app].
      intros [H1|H1]; [lia|]. apply in_app_or in H1 as [H1|[H1|H1]]; [auto|lia|].
      apply in_app_or in H1 as [H1|[H1|[]]]; [auto|lia]. }
  replace (34 :: (a ++ c :: b) ++ [34]) with (34 :: a ++ c :: (b ++ [34])) by (rewrite <- app_assoc; reflexivity).
  now apply parse_stop.
Qed.
Print Assumptions C56_newline_refuted.

Lemma unesc_prefix a : ~ In 92 a -> forall f r, r <> [] -> unesc (length a + f) (a ++ r) = a ++ unesc f r.
Proof.
  induction a as [|c a IH]; intros H f r Hr; [reflexivity|]. cbn [length Nat.add app unesc].
  destruct (a ++ r) as [|e q] eqn:E; [apply app_eq_nil in E as [_ E]; congruence|].
  destruct (Z.eqb_spec c 92) as [->|]; [destruct H; now left|]. rewrite <- E. f_equal. apply IH; auto.
  intros K. apply H. now right.
Qed.

(** C56 fails: a backslash in a string is taken for an escape; before an n it makes the text
    unreadable, before any other character but \, t, quotes both disappear. *)
Theorem C56_backslash_n_refuted : forall other fm a b, plain_str a -> plain_str b ->
  exists t, json_serialize fm (JS (a ++ 92 :: 110 :: b)) = Ok t /\
    forall s, srep s t -> json_deserialize other s = Thr.
Proof.
  intros other fm a b Pa Pb. exists (34 :: (a ++ 92 :: 110 :: b) ++ [34]). split; [reflexivity|].
  intros s R. destruct (unescape_ok s _ R) as (u & E & Ru).
  rewrite (json_deserialize_eq other s u _ E Ru).
  replace (34 :: (a ++ 92 :: 110 :: b) ++ [34]) with ((34 :: a) ++ 92 :: 110 :: (b ++ [34])) by (cbn [app]; now rewrite <- app_assoc).
  replace (S (length ((34 :: a) ++ 92 :: 110 :: b ++ [34]))) with (length (34%Z :: a) + S (S (length (110%Z :: b ++ [34%Z]))))%nat
    by (rewrite !app_length; cbn [length]; lia).
  rewrite unesc_prefix; [|intros [H|H]; [lia|exact (plain_92 a Pa H)]|discriminate].
  cbn [unesc]. change (92 =? 92) with true. change (110 =? 92) with false. change (110 =? 110) with true. cbn match.
  cbn [app]. apply parse_stop; auto.
Qed.
Print Assumptions C56_backslash_n_refuted.
Theorem C56_backslash_lost_refuted : forall other fm a c b, plain_str a -> plain_str b ->
  c <> 92 -> c <> 110 -> c <> 116 -> c <> 34 -> c <> 39 ->
  exists t, json_serialize fm (JS (a ++ 92 :: c :: b)) = Ok t /\
    forall s, srep s t -> json_deserialize other s = Ok (JS (a ++ b)).
Proof.
  intros other fm a c b Pa Pb H1 H2 H3 H4 H5. exists (34 :: (a ++ 92 :: c :: b) ++ [34]). split; [reflexivity|].
  intros s R. destruct (unescape_ok s _ R) as (u & E & Ru).
  rewrite (json_deserialize_eq other s u _ E Ru).
  replace (34 :: (a ++ 92 :: c :: b) ++ [34]) with ((34 :: a) ++ 92 :: c :: (b ++ [34])) by (cbn [app]; now rewrite <- app_assoc).
  replace (S (length ((34 :: a) ++ 92 :: c :: b ++ [34]))) with (length (34%Z :: a) + S (S (length (c :: b ++ [34%Z]))))%nat
    by (rewrite !app_length; cbn [length]; lia).
  rewrite unesc_prefix; [|intros [H|H]; [lia|exact (plain_92 a Pa H)]|discriminate].
  assert (U : unesc (S (S (length (c :: b ++ [34])))) (92 :: c :: b ++ [34]) = b ++ [34]).
  { cbn [unesc]. change (92 =? 92) with true. cbn match.
    destruct (Z.eqb_spec c 92), (Z.eqb_spec c 110), (Z.eqb_spec c 116), (Z.eqb_spec c 34), (Z.eqb_spec c 39); try congruence.
    rewrite app_nil_l. apply (unesc_plain (b ++ [34]) (S (length (c :: b ++ [34])))); [cbn [length]; lia|].
    intros H. apply in_app_or in H as [H|[H|[]]]; [exact (plain_92 b Pb H)|lia]. }
  rewrite U. cbn [app].
  replace (34 :: a ++ b ++ [34]) with ([] ++ (34 :: (a ++ b) ++ [34]) ++ []) by (rewrite app_nil_r, <- app_assoc; reflexivity).
  apply (parse_text _ [] (34 :: (a ++ b) ++ [34]) (JS (a ++ b)) [] []); try reflexivity; [constructor| |now left].
  apply jt_str, plain_body. apply Forall_app. split; assumption.
Qed.
Print Assumptions C56_backslash_lost_refuted.

(** null and undefined are both written null, and null is read as undefined ([other]: strtof does
    not take it for a number). *)
Theorem C56_null_undefined : forall other fm v, v = JN \/ v = JU -> other [110; 117; 108; 108] = None ->
  exists t, json_serialize fm v = Ok t /\ forall s, srep s t -> json_deserialize other s = Ok JU.
Proof.
  intros other fm v Hv Ho. exists [110; 117; 108; 108]. split; [destruct Hv as [-> | ->]; reflexivity|].
  intros s R. rewrite (json_deserialize_plain other s _ R) by (cbn; lia).
  apply (parse_text (fparse other) [] [110; 117; 108; 108] JU [] []); try reflexivity; [constructor| |now left].
  apply jt_word; [|exact Ho]. unfold word_ok. split; [discriminate|]. split; [reflexivity|].
  split; [repeat constructor; lia|]. repeat split; cbn [hd]; try lia; intros r E; discriminate.
Qed.
Print Assumptions C56_null_undefined.

(** ** C57: reading *)

(** C57. Reading any string ends: with a value, with an error, or by leaving the text or a
    buffer; it never runs forever. *)
Theorem C57_ends : forall other s l, srep s l ->
  (exists v, json_deserialize other s = Ok v) \/ json_deserialize other s = Thr \/ json_deserialize other s = UB.
Proof.
  intros other s l R. destruct (json_deserialize_total other s l R) as (u & t & _ & _ & ->).
  destruct (j_parse_cases (fparse other) t) as [[v H]|[H|[H _]]]; eauto.
Qed.
Print Assumptions C57_ends.

(** C57. For texts (after unescaping) that are short, whose comments are closed and that end with
    a newline, and for texts without // and /* on lines below 985 bytes, reading gives a value or an
    error and stays inside the text and the buffers.  Missing: other texts, see the refutations. *)
Theorem C57_total_partial : forall other s u t, s_unescape s = Ok u -> srep u t ->
  short_closed t \/ plain_lines t ->
  (exists v, json_deserialize other s = Ok v) \/ json_deserialize other s = Thr.
Proof.
  intros other s u t E R H. rewrite (json_deserialize_eq other s u t E R).
  assert (HG : G t) by (destruct H; [now apply short_closed_G|now apply plain_lines_G]).
  destruct (j_parse_cases (fparse other) t) as [Hv|[Hv|[_ N]]]; [auto|auto|contradiction].
Qed.
Print Assumptions C57_total_partial.
(** [1, /* x */ 2 newline *)
Example C57_case : exists s u t, srep s [91; 49; 44; 47; 42; 120; 42; 47; 50; 10] /\ s_unescape s = Ok u /\ srep u t /\ short_closed t.
Proof.
  destruct (s_lit_ok [91; 49; 44; 47; 42; 120; 42; 47; 50; 10]) as (s & _ & R & _).
  { repeat (apply nonul_cons; split; [lia|]). apply nonul_nil. }
  destruct (unescape_ok s _ R) as (u & E & Ru). exists s, u, [91; 49; 44; 47; 42; 120; 42; 47; 50; 10].
  split; [exact R|]. split; [exact E|]. split; [exact Ru|]. split; [reflexivity|]. split.
  - intros v [p H].
    repeat (destruct p as [|? p]; cbn [app] in H;
      [first [discriminate H|injection H as <-; exists [120], [50; 10]; reflexivity]|first [discriminate H|injection H as _ H]]).
  - now exists [91; 49; 44; 47; 42; 120; 42; 47; 50].
Qed.

(** C57. Every text of the grammar is read as the value it stands for, with blanks and comments
    in front; the text behind the value is not looked at, except for blanks and comments. *)
Theorem C57_accepts : forall other s w t v r q,
  srep s (w ++ t ++ r) -> ~ In 92 (w ++ t ++ r) -> ws w -> jtext (fparse other) t v ->
  tail r -> blanks r = Ok q -> blanks q = Ok q ->
  json_deserialize other s = Ok v.
Proof.
  intros other s w t v r q R N W T Ht B Bq. rewrite (json_deserialize_plain other s _ R N).
  eapply parse_text; eauto.
Qed.
Print Assumptions C57_accepts.
(** a blank, an object, then text that is no JSON *)
Example C57_accepts_case : ws [32] /\ jtext (fparse (fun _ => None)) [123; 34; 97; 34; 58; 49; 125] (JO [([97], JF (of_int 1))]) /\
  tail [93; 120] /\ blanks [93; 120] = Ok [93; 120].
Proof.
  split; [repeat constructor|]. split; [|split; [now right|reflexivity]].
  change [([97], JF (of_int 1))] with (fields_of [([97], JF (of_int 1))]).
  change [123; 34; 97; 34; 58; 49; 125] with (123 :: [] ++ [34; 97; 34; 58; 49] ++ [125]). apply jt_obj; [constructor|].
  apply (jf_one (fparse (fun _ => None)) [97] [] [] [49] (JF (of_int 1)) []); try apply ws_nil.
  - apply plain_body. repeat constructor; lia.
  - apply jt_num; [|vm_compute; reflexivity]. apply num_word; [discriminate|reflexivity|].
    repeat constructor; unfold numchar; lia.
  - split; [constructor|cbn; lia].
Qed.

(** A name given twice stands once, in its first place, with the value given last. *)
Example C57_same_name_case :
  rbind (s_lit [123; 34; 97; 34; 58; 49; 44; 34; 98; 34; 58; 50; 44; 34; 97; 34; 58; 51; 125])
    (json_deserialize (fun _ => None))
  = Ok (JO [([97], JF (of_int 3)); ([98], JF (of_int 2))]).
Proof. vm_compute. reflexivity. Qed.

(** A word that is neither string, container, boolean nor number is no error: undefined. *)
Theorem C57_unknown_word : forall other s t, srep s t -> ~ In 92 t -> word_ok t -> fparse other t = None ->
  json_deserialize other s = Ok JU.
Proof.
  intros other s t R N W F. rewrite (json_deserialize_plain other s _ R N).
  rewrite <- (app_nil_r t). change (t ++ []) with ([] ++ t ++ []).
  apply (parse_text (fparse other) [] t JU [] []); try reflexivity; [constructor|now apply jt_word|now left].
Qed.
Print Assumptions C57_unknown_word.
Example C57_unknown_word_case : word_ok [97; 98] /\ fparse (fun _ => None) [97; 98] = None.
Proof.
  split; [|reflexivity]. split; [discriminate|]. split; [reflexivity|]. split; [repeat constructor; lia|].
  repeat split; cbn [hd]; try lia; intros r E; discriminate.
Qed.

(** *** Where C57 fails *)
Lemma adv_none c s : ~ In 10 s -> ~ In 13 s -> ~ In c s -> adv_char c s = [].
Proof.
  induction s as [|x s IH]; intros H1 H2 H3; cbn [adv_char]; [reflexivity|].
  destruct (Z.eqb_spec x 10) as [->|]; [destruct H1; now left|].
  destruct (Z.eqb_spec x 13) as [->|]; [destruct H2; now left|].
  destruct (Z.eqb_spec x c) as [->|]; [destruct H3; now left|]. apply IH; intros K; [apply H1|apply H2|apply H3]; now right.
Qed.

(** C57 fails: a comment that is not closed makes the reader leave the text. *)
Theorem C57_open_comment_refuted : forall other s w c, srep s (w ++ 47 :: 42 :: c) -> ~ In 92 w -> ws w ->
  c <> [] -> ~ In 42 c -> ~ In 10 c -> ~ In 13 c -> ~ In 92 c -> json_deserialize other s = UB.
Proof.
  intros other s w c R Nw W H0 H1 H2 H3 H4. rewrite (json_deserialize_plain other s _ R).
  2:{ intros H. apply in_app_or in H as [H|[H|[H|H]]]; [auto|lia|lia|auto]. }
  unfold j_parse. rewrite Nat.add_comm. cbn [Nat.add j_val].
  assert (E : blanks (w ++ 47 :: 42 :: c) = UB).
  { rewrite ws_skip; [|exact W|unfold crok; cbn [hd]; intros K; discriminate K].
    rewrite blanks_once. change (spaces (47 :: 42 :: c)) with (47 :: 42 :: c).
    change (is_single (47 :: 42 :: c)) with false. change (is_start (47 :: 42 :: c)) with true. cbn match.
    unfold end_comment. cbn [tl length]. cbn [to_end].
    assert (is_end c = false) as ->.
    { destruct c as [|x c]; [congruence|]. unfold is_end. cbn [hd]. destruct (Z.eqb_spec x 42) as [->|]; [destruct H1; now left|reflexivity]. }
    destruct c as [|x c]; [congruence|]. now rewrite (adv_none 42 (x :: c)). }
  rewrite E. reflexivity.
Qed.
Print Assumptions C57_open_comment_refuted.
Example C57_open_comment_case : exists s, srep s ([32] ++ [47; 42; 120]) /\ ws [32].
Proof.
  destruct (s_lit_ok [32; 47; 42; 120]) as (s & _ & R & _).
  { repeat (apply nonul_cons; split; [lia|]). apply nonul_nil. }
  exists s. split; [exact R|repeat constructor].
Qed.

Lemma digit_start ds r f : ds <> [] -> Forall (fun c => 48 <= c <= 57) ds ->
  j_val f 2 (ds ++ r) = j_scalar f (ds ++ r) /\
  j_scalar f (ds ++ r) =
    do e <- to_tok (S (length (ds ++ r))) (ds ++ r);
    let n := (length (ds ++ r) - length e)%nat in
    match n with
    | O => Thr
    | _ => if NUMBUF <=? Z.of_nat n then UB
           else Ok (match f (firstn n (ds ++ r)) with Some f => JF f | None => JU end, e)
    end.
Proof.
  intros H0 F. destruct ds as [|c ds]; [congruence|]. inversion F as [|? ? Hc F']; subst. cbn [app]. split.
  - cbn [j_val]. rewrite solid_stay by (unfold solid; lia). cbn [rbind hd].
    destruct (Z.eqb_spec c 91), (Z.eqb_spec c 123); first [lia|reflexivity].
  - unfold j_scalar. cbn [hd]. destruct (Z.eqb_spec c 34); [lia|].
    assert (K : forall p q, p <> c -> prefix (p :: q) (c :: ds ++ r) = false).
    { intros p q Hp. unfold prefix. cbn [length firstn]. apply leqb_neq. congruence. }
    rewrite !K by lia. reflexivity.
Qed.
Lemma to_tok_digits ds : forall f r, Forall (fun c => 48 <= c <= 57) ds ->
  to_tok (length ds + f) (ds ++ r) = to_tok f r.
Proof.
  induction ds as [|c ds IH]; intros f r F; [reflexivity|]. inversion F as [|? ? Hc F']; subst.
  cbn [length Nat.add app to_tok].
  assert (is_start (c :: ds ++ r) = false) as -> by (unfold is_start; cbn [hd]; destruct (Z.eqb_spec c 47); [lia|reflexivity]).
  cbn [rbind].
  assert (is_single (c :: ds ++ r) = false) as -> by (unfold is_single; cbn [hd]; destruct (Z.eqb_spec c 47); [lia|reflexivity]).
  assert (endchar c = false) as ->; [|now apply IH].
  unfold endchar. destruct (Z.eqb_spec c 44), (Z.eqb_spec c 125), (Z.eqb_spec c 32), (Z.eqb_spec c 9), (Z.eqb_spec c 10),
    (Z.eqb_spec c 13), (Z.eqb_spec c 93); first [lia|reflexivity].
Qed.
Lemma parse_fuel num f s : (2 <= f)%nat -> hd 0 s <> 91 -> hd 0 s <> 123 -> blanks s = Ok s -> j_val num f s = j_val num 2 s.
Proof.
  intros Hf H1 H2 E. destruct f as [|f]; [lia|]. cbn [j_val]. rewrite E. cbn [rbind].
  destruct (Z.eqb_spec (hd 0 s) 91), (Z.eqb_spec (hd 0 s) 123); first [congruence|reflexivity].
Qed.
Lemma digits_parse num ds r : ds <> [] -> Forall (fun c => 48 <= c <= 57) ds ->
  j_parse num (ds ++ r) = do x <- j_scalar num (ds ++ r); Ok (fst x).
Proof.
  intros H0 F. unfold j_parse. rewrite parse_fuel.
  - now rewrite (proj1 (digit_start ds r num H0 F)).
  - lia.
  - destruct ds; [congruence|]. inversion F; subst. cbn. lia.
  - destruct ds; [congruence|]. inversion F; subst. cbn. lia.
  - destruct ds; [congruence|]. inversion F; subst. apply solid_stay. unfold solid. lia.
Qed.
Lemma digits_nobs ds : Forall (fun c => 48 <= c <= 57) ds -> ~ In 92 ds.
Proof. intros F H. rewrite Forall_forall in F. specialize (F _ H). cbn in F. lia. Qed.

(** C57 fails: a number followed at once by a line comment that ends the text makes the reader
    leave the text. *)
Theorem C57_comment_after_number_refuted : forall other s ds c, srep s (ds ++ 47 :: 47 :: c) ->
  ds <> [] -> Forall (fun d => 48 <= d <= 57) ds -> ~ In 10 c -> ~ In 13 c -> ~ In 92 c ->
  json_deserialize other s = UB.
Proof.
  intros other s ds c R H0 F H1 H2 H3. rewrite (json_deserialize_plain other s _ R).
  2:{ intros H. apply in_app_or in H as [H|[H|[H|H]]]; [exact (digits_nobs ds F H)|lia|lia|auto]. }
  rewrite digits_parse by auto. rewrite (proj2 (digit_start ds _ _ H0 F)).
  replace (S (length (ds ++ 47 :: 47 :: c))) with (length ds + S (length (47%Z :: 47%Z :: c)))%nat by (rewrite app_length; lia).
  rewrite to_tok_digits by exact F. cbn [to_tok]. change (is_start (47 :: 47 :: c)) with false. cbn [rbind].
  change (is_single (47 :: 47 :: c)) with true. cbn match.
  rewrite (adv_none 10 (47 :: 47 :: c)); [reflexivity| | |]; intros [K|[K|K]]; try lia; auto.
Qed.
Print Assumptions C57_comment_after_number_refuted.
Example C57_comment_after_number_case : exists s, srep s ([49] ++ [47; 47; 120]).
Proof.
  destruct (s_lit_ok [49; 47; 47; 120]) as (s & _ & R & _).
  { repeat (apply nonul_cons; split; [lia|]). apply nonul_nil. }
  now exists s.
Qed.

(** C57 fails: a number of 1024 or more digits is written over the end of a buffer. *)
Theorem C57_long_number_refuted : forall other s ds r, srep s (ds ++ r) -> 1024 <= zlen ds ->
  Forall (fun d => 48 <= d <= 57) ds -> tail r -> ~ In 92 r -> json_deserialize other s = UB.
Proof.
  intros other s ds r R Hl F T N. rewrite (json_deserialize_plain other s _ R).
  2:{ intros H. apply in_app_or in H as [H|H]; [exact (digits_nobs ds F H)|auto]. }
  assert (H0 : ds <> []) by (intros ->; cbn in Hl; lia).
  rewrite digits_parse by auto. rewrite (proj2 (digit_start ds r _ H0 F)).
  rewrite to_tok_word; [|lia|exact T|].
  2:{ eapply Forall_impl; [|exact F]. cbn. intros c Hc. split; [|lia].
      unfold endchar. destruct (Z.eqb_spec c 44), (Z.eqb_spec c 125), (Z.eqb_spec c 32), (Z.eqb_spec c 9), (Z.eqb_spec c 10),
        (Z.eqb_spec c 13), (Z.eqb_spec c 93); first [lia|reflexivity]. }
  cbn [rbind]. replace (length (ds ++ r) - length r)%nat with (length ds) by (rewrite app_length; lia).
  cbv zeta. unfold zlen in Hl. destruct (length ds) as [|n] eqn:E; [cbn in Hl; lia|].
  unfold NUMBUF. destruct (Z.leb_spec 1024 (Z.of_nat (S n))); [reflexivity|lia].
Qed.
Print Assumptions C57_long_number_refuted.
Example C57_long_number_case : exists s n, srep s (repeat 49 n ++ []) /\ 1024 <= zlen (repeat 49 n) /\ tail [].
Proof.
  destruct (s_lit_ok (repeat 49 (Z.to_nat 1024) ++ [])) as (s & _ & R & _).
  { apply Forall_forall. intros x H. rewrite app_nil_r in H. apply repeat_spec in H. lia. }
  exists s, (Z.to_nat 1024). split; [exact R|]. split; [unfold zlen; rewrite repeat_length; lia|now left].
Qed.

(** C57 fails: the error message about a name of 985 or more bytes without a colon behind it is
    written over the end of a buffer. *)
Theorem C57_long_name_refuted : forall other s k r, srep s (123 :: 34 :: k ++ 34 :: r) -> 985 <= zlen k ->
  plain_str k -> ~ In 92 r -> solid (hd 10 r) -> hd 10 r <> 58 -> json_deserialize other s = UB.
Proof.
  intros other s k r R Hl Pk N Hr H58. rewrite (json_deserialize_plain other s _ R).
  2:{ intros [H|[H|H]]; [lia|lia|]. apply in_app_or in H as [H|[H|H]]; [exact (plain_92 k Pk H)|lia|auto]. }
  unfold j_parse. cbn [length]. rewrite Nat.add_comm, Nat.mul_comm. cbn [Nat.add Nat.mul j_val].
  rewrite solid_stay by (unfold solid; lia). cbn [rbind hd tl].
  change (123 =? 91) with false. change (123 =? 123) with true. cbn match.
  rewrite solid_stay by (unfold solid; lia). cbn [rbind hd]. change (34 =? 125) with false. cbn match.
  cbn [j_fields]. rewrite (read_string_ok k r r (plain_body k Pk)).
  2:{ destruct r as [|c r]; cbn [hd] in *; [destruct Hr as (_ & _ & H & _); congruence|]. now apply solid_stay. }
  cbn [rbind fst snd]. destruct r as [|c r]; cbn [hd] in *; [destruct Hr as (_ & _ & H & _); congruence|].
  destruct (Z.eqb_spec c 58); [congruence|]. unfold KEYBUF. destruct (Z.leb_spec 985 (zlen k)); [reflexivity|lia].
Qed.
Print Assumptions C57_long_name_refuted.
Example C57_long_name_case : exists s n, srep s (123 :: 34 :: repeat 97 n ++ 34 :: [125]) /\ 985 <= zlen (repeat 97 n) /\ plain_str (repeat 97 n) /\ solid 125.
Proof.
  destruct (s_lit_ok (123 :: 34 :: repeat 97 (Z.to_nat 985) ++ 34 :: [125])) as (s & _ & R & _).
  { apply Forall_forall. intros x [H|[H|H]]; [lia|lia|]. apply in_app_or in H as [H|[H|[H|[]]]]; [|lia|lia]. apply repeat_spec in H. lia. }
  exists s, (Z.to_nat 985). split; [exact R|]. split; [unfold zlen; rewrite repeat_length; lia|]. split.
  - apply Forall_forall. intros x H. apply repeat_spec in H. lia.
  - unfold solid. lia.
Qed.

(** ** C97: the parameter [minimized] *)
Lemma sep_nl fm n : In 10 (if fm : bool then 10 :: repeat 9 n else []) -> fm = true.
Proof. destruct fm; cbn; auto. Qed.
(** C97 fails: with [minimized] set, every object with a field is spread over lines. *)
Theorem C97_minimized_refuted : forall k x l t, json_serialize true (JO ((k, x) :: l)) = Ok t -> In 10 t.
Proof.
  intros k x l t E. unfold json_serialize in E. rewrite ser_O in E. cbn [s_fields] in E.
  destruct (ser true 1 x) as [a| | |]; cbn [rbind] in E; try discriminate.
  destruct (s_fields true 0 false l) as [b| | |]; cbn [rbind] in E; try discriminate.
  injection E as <-. right. left. reflexivity.
Qed.
Print Assumptions C97_minimized_refuted.

Lemma word_no10 t : word_ok t -> ~ In 10 t.
Proof. intros (_ & _ & F & _) H. rewrite Forall_forall in F. specialize (F _ H). cbn in F. lia. Qed.
Lemma plain_no10 a : plain_str a -> ~ In 10 a.
Proof. intros F H. unfold plain_str in F. rewrite Forall_forall in F. destruct (F _ H) as (K & _). congruence. Qed.
Lemma num_no10 v t id : jsonable v -> (exists z, v = JI z) \/ (exists f, v = JF f) -> ser false id v = Ok t -> ~ In 10 t.
Proof.
  intros J Hv E. destruct (all_good (fun _ => None) v J false id) as (t' & v' & E' & T & Q & _).
  rewrite E in E'. injection E' as <-.
  assert (exists f, v' = JF f) as (f & ->) by (destruct Hv as [[z ->]|[f ->]]; inversion Q; eauto).
  inversion T; subst. now apply word_no10.
Qed.
(** C97. Without [minimized] the text of a value as in C56 is one line. *)
Theorem C97_not_minimized_one_line : forall v t, jsonable v -> json_serialize false v = Ok t -> ~ In 10 t.
Proof.
  unfold json_serialize. generalize 0%nat.
  intros id v. revert id. induction v as [| |b|z|f|s|l IH|l IH] using jval_all; intros id t J E; try contradiction.
  - destruct b; cbn [ser] in E; injection E as <-; cbn; lia.
  - eapply num_no10; eauto.
  - eapply num_no10; eauto.
  - cbn [ser] in E. injection E as <-. intros [H|H]; [lia|]. apply in_app_or in H as [H|[H|[]]]; [exact (plain_no10 s J H)|lia].
  - apply jsonable_A in J. rewrite ser_A in E.
    assert (K : forall l, Forall (fun v => forall id t, jsonable v -> ser false id v = Ok t -> ~ In 10 t) l -> Forall jsonable l ->
      forall first t, s_items false id first l = Ok t -> ~ In 10 t).
    { clear. induction l as [|x l IHl]; intros F J first t E; cbn [s_items] in E; [injection E as <-; cbn; tauto|].
      inversion F as [|? ? F1 F2]; subst. inversion J as [|? ? J1 J2]; subst.
      destruct (ser false id x) as [a| | |] eqn:Ea; cbn [rbind] in E; try discriminate.
      destruct (s_items false id false l) as [b| | |] eqn:Eb; cbn [rbind] in E; try discriminate. injection E as <-.
      intros H. apply in_app_or in H as [H|H]; [destruct first; cbn in H; lia|].
      apply in_app_or in H as [H|H]; [exact (F1 id a J1 Ea H)|exact (IHl F2 J2 false b Eb H)]. }
    destruct (s_items false id true l) as [b| | |] eqn:Eb; cbn [rbind] in E; try discriminate. injection E as <-.
    intros [H|H]; [lia|]. apply in_app_or in H as [H|[H|[]]]; [exact (K l IH J true b Eb H)|lia].
  - apply jsonable_O in J as [_ J]. rewrite ser_O in E.
    assert (K : forall l, Forall (fun kv => forall id t, jsonable (snd kv) -> ser false id (snd kv) = Ok t -> ~ In 10 t) l ->
      Forall (fun kv => plain_str (fst kv) /\ jsonable (snd kv)) l ->
      forall first t, s_fields false id first l = Ok t -> ~ In 10 t).
    { clear. induction l as [|[k x] l IHl]; intros F J first t E; cbn [s_fields] in E; [injection E as <-; cbn; tauto|].
      inversion F as [|? ? F1 F2]; subst. inversion J as [|? ? [Jk J1] J2]; subst. cbn [fst snd] in *.
      destruct (ser false (S id) x) as [a| | |] eqn:Ea; cbn [rbind] in E; try discriminate.
      destruct (s_fields false id false l) as [b| | |] eqn:Eb; cbn [rbind] in E; try discriminate. injection E as <-.
      intros H. cbn [app] in H. apply in_app_or in H as [H|H]; [destruct first; cbn in H; lia|].
      destruct H as [H|H]; [lia|]. apply in_app_or in H as [H|[H|[H|H]]]; [exact (plain_no10 k Jk H)|lia|lia|].
      apply in_app_or in H as [H|H]; [exact (F1 _ a J1 Ea H)|exact (IHl F2 J2 false b Eb H)]. }
    destruct (s_fields false id true l) as [b| | |] eqn:Eb; cbn [rbind] in E; try discriminate. injection E as <-.
    cbn [app]. intros [H|H]; [lia|]. apply in_app_or in H as [H|[H|[]]]; [exact (K l IH J true b Eb H)|lia].
Qed.
Print Assumptions C97_not_minimized_one_line.
(** With [minimized] the value of [C56_case] takes several lines. *)
Example C97_case : match json_serialize true C56_sample with Ok t => nth 1 t 0 = 10 | _ => False end.
Proof. vm_compute. reflexivity. Qed.
