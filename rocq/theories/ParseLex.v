(** What the scanning functions find in written expressions. *)
From Coq Require Import List ZArith Bool Lia String.
From Verif Require Import Base StringModel LexModel LexSpec LexProofs LexOps LexTok LexNum ParseModel ParseSpec.
Import ListNotations.
Local Open Scope Z_scope.

(** ** Blanks *)
Definition solid (u : list Z) : Prop :=
  ~ In (hd 0 u) [32; 9; 10; 13] /\ (hd 0 u = 47 -> hd 0 (tl u) <> 47 /\ hd 0 (tl u) <> 42) /\ (hd 0 u = 42 -> hd 0 (tl u) <> 47).
Lemma two_false : forall a b s, (hd 0 s = a -> hd 0 (tl s) <> b) -> two a b s = false.
Proof.
  intros a b [|c s] H; [reflexivity|]. cbn in *. destruct (Z.eqb_spec c a); [|reflexivity].
  cbn. apply Z.eqb_neq. apply H. assumption.
Qed.
Lemma blanks_solid : forall b u, trivia b -> solid u -> blanks (b ++ u) = Ok u.
Proof.
  intros b u B (S1 & S2 & S3). unfold blanks. rewrite blanks_insig; [|exact B|].
  - rewrite ib_sig; [reflexivity|..]; try (intros E; apply S1; unfold hd0 in E; rewrite E; cbn; tauto);
      apply two_false; intros E; try (apply S2 in E; tauto); apply S3; exact E.
  - intros E. exfalso. apply S1. rewrite E. cbn. tauto.
Qed.
Lemma solid_first : forall c u, ~ In c [32; 9; 10; 13; 47; 42] -> solid (c :: u).
Proof. intros c u H. unfold solid. cbn in *. repeat split; intros; try subst; intuition lia. Qed.
Lemma solid_hd : forall u, ~ In (hd 0 u) [32; 9; 10; 13; 47; 42] -> solid u.
Proof. intros [|c u] H; [|apply solid_first; exact H]. unfold solid. cbn. repeat split; intros; intuition lia. Qed.
Lemma trivia_hd : forall b x, trivia b -> b <> [] -> In (hd 0 (b ++ x)) [32; 9; 10; 13; 47].
Proof. intros b x T N. destruct T; cbn; intuition. Qed.
Lemma trivia_hd0 : forall b, trivia b -> b <> [] -> In (hd 0 b) [32; 9; 10; 13; 47].
Proof. intros b T N. rewrite <- (app_nil_r b). apply trivia_hd; auto. Qed.

(** ** Characters *)
Lemma alnum_range : forall c, is_alnum_ c = true <-> 97 <= c <= 122 \/ 65 <= c <= 90 \/ c = 95 \/ 48 <= c <= 57.
Proof. intros. unfold is_alnum_, is_alpha_, is_digit, in_range. rewrite ?orb_true_iff, ?andb_true_iff, ?Z.leb_le, ?Z.eqb_eq. lia. Qed.
Lemma alpha_range : forall c, is_alpha_ c = true <-> 97 <= c <= 122 \/ 65 <= c <= 90 \/ c = 95.
Proof. intros. unfold is_alpha_, in_range. rewrite ?orb_true_iff, ?andb_true_iff, ?Z.leb_le, ?Z.eqb_eq. lia. Qed.
Lemma alpha_alnum : forall c, is_alpha_ c = true -> is_alnum_ c = true.
Proof. intros c H. unfold is_alnum_. rewrite H. reflexivity. Qed.
Lemma ends_not_alnum : forall t, ends_token t -> is_alnum_ (hd 0 t) = false.
Proof.
  intros t H. destruct (is_alnum_ (hd 0 t)) eqn:E; [|reflexivity]. apply alnum_range in E.
  destruct H as [H|[r ->]]; [|cbn in E; lia]. cbn in H. intuition lia.
Qed.
Lemma alnum_not_ends_after : forall p t, is_alnum_ (hd 0 t) = true -> ~ ends_after p t.
Proof.
  intros p t E H. apply alnum_range in E. destruct H as [H|[[r ->]|[H _]]]; [|cbn in E; lia|lia].
  cbn in H. intuition lia.
Qed.
Lemma ends_after_of : forall p t, ends_token t -> p <> 92 -> ends_after p t.
Proof.
  intros p t [H|H] N; [|right; left; exact H]. unfold ender in H. unfold ends_after, ender0.
  cbn in H |- *. intuition.
Qed.

(** ** Words *)
Lemma word_all : forall w, word w -> all is_alnum_ w.
Proof. intros w (c & w' & -> & A & B). constructor; [apply alpha_alnum; exact A | exact B]. Qed.
(** A text that starts with a word and, at the same place, with some letters and digits. *)
Lemma word_prefix : forall v w r x, all is_alnum_ v -> all is_alnum_ w -> is_alnum_ (hd 0 r) = false ->
  w ++ r = v ++ x -> (v = w /\ x = r) \/ (is_alnum_ (hd 0 x) = true).
Proof.
  induction v as [|c v IH]; intros w r x V W R E.
  - cbn in E. subst x. destruct w as [|d w]; [left; auto|]. right. inversion W; subst. exact H1.
  - inversion V; subst. destruct w as [|d w].
    + cbn in E. subst r. cbn in R. congruence.
    + inversion W; subst. cbn in E. inversion E; subst. destruct (IH w r x) as [[-> ->]|K]; auto.
Qed.
Lemma kw_alnum : forall k, k <> KwVarArgs -> all is_alnum_ (kw_spelling k).
Proof. intros [] H; try congruence; repeat constructor. Qed.
Lemma word_no_keyword : forall w r, word w -> (forall k, w <> kw_spelling k) -> is_alnum_ (hd 0 r) = false ->
  is_keyword (w ++ r) = Ok None.
Proof.
  intros w r W N R. destruct (is_keyword_spec (w ++ r)) as (o & -> & H). destruct o as [k|]; [|reflexivity]. exfalso.
  destruct (proj1 (H k) eq_refl) as (x & E & S).
  assert (V : k <> KwVarArgs). { intros ->. destruct W as (c & w' & -> & A & _). cbn in E. inversion E; subst. discriminate. }
  destruct (word_prefix (kw_spelling k) w r x (kw_alnum k V) (word_all w W) R E) as [[K _]|K].
  - apply (N k). auto.
  - apply alnum_range in K. destruct S as [S|[q ->]]; [cbn in S; intuition lia | cbn in K; lia].
Qed.
Lemma word_no_word_at : forall v w r, word w -> all is_alnum_ v -> w <> v -> is_alnum_ (hd 0 r) = false -> ~ word_at v (w ++ r).
Proof.
  intros v w r W V N R (c & x & E & B).
  destruct (word_prefix v w r (c :: x) V (word_all w W) R E) as [[K _]|K]; [congruence|].
  apply alnum_range in K. cbn in K. unfold blank_after in B. lia.
Qed.
Lemma word_token_exact : forall w r, word w -> ends_token r -> word_token (w ++ r) = Ok (w, r).
Proof.
  intros w r W R. unfold word_token.
  assert (A := word_all w W). assert (N : w <> []) by (destruct W as (c & w' & -> & _); discriminate). clear W.
  assert (L : (List.length w < Datatypes.S (List.length (w ++ r)))%nat) by (rewrite app_length; lia).
  revert L. generalize (Datatypes.S (List.length (w ++ r))). induction w as [|c w IH]; [congruence|]. intros n L.
  destruct n as [|n]; [cbn in L; lia|]. cbn [app word_loop]. inversion A; subst.
  destruct (end_spec (w ++ r) c) as (b & -> & B). cbn [rbind]. destruct w as [|d w].
  - assert (b = true) as -> by (apply B, ends_after_of; [exact R|]; apply alnum_range in H1; cbn in *; lia). reflexivity.
  - inversion H2; subst. destruct b.
    + exfalso. apply (alnum_not_ends_after c ((d :: w) ++ r)); [exact H3 | tauto].
    + rewrite IH; [reflexivity | exact H2 | discriminate | cbn in L |- *; lia].
Qed.
Lemma word_no_number : forall w r, word w -> (forall k, w <> kw_spelling k) -> is_alnum_ (hd 0 r) = false ->
  parse_literal_number (w ++ r) = Ok None.
Proof.
  intros w r W N R. unfold parse_literal_number. rewrite word_no_keyword by auto. cbn [rbind].
  destruct W as (c & w' & -> & A & _). cbn [app]. rewrite peek0. cbn [rbind hd0 hd]. apply alpha_range in A.
  destruct (Z.eqb_spec c 39); [lia|]. destruct (Z.eqb_spec c 48); [lia|]. cbn [rbind]. rewrite peek0. cbn [rbind hd0 hd].
  unfold is_digit, in_range. destruct (Z.leb_spec 48 c), (Z.leb_spec c 57); try lia; cbn [andb orb];
    destruct (Z.eqb_spec c 46); try lia; reflexivity.
Qed.
Lemma word_symbol : forall w r, word w -> (forall k, w <> kw_spelling k) -> ends_token r ->
  symbol_token (w ++ r) = Ok (TWord w, r).
Proof.
  intros w r W N R. unfold symbol_token. rewrite word_no_number by (auto; apply ends_not_alnum; auto). cbn [rbind].
  assert (H : hd0 (w ++ r) <> 34). { destruct W as (c & w' & -> & A & _). apply alpha_range in A. cbn. lia. }
  rewrite peek0. cbn [rbind]. destruct (Z.eqb_spec (hd0 (w ++ r)) 34); [congruence|].
  rewrite word_token_exact by auto. reflexivity.
Qed.
Lemma op_first_not_alnum : forall o x r, In o punctuation -> starts_with (x :: r) (spelling o) -> is_alnum_ x = false.
Proof.
  intros o x r I [q E]. destruct (is_alnum_ x) eqn:A; [|reflexivity]. apply alnum_range in A.
  destruct (op_first_spec o I) as [->|(c & z & K & J)].
  - cbn in E. inversion E; subst. lia.
  - rewrite K in E. inversion E; subst. cbn in J. intuition lia.
Qed.
Lemma no_operator_alnum : forall u, is_alnum_ (hd 0 u) = true -> ~ word_at (bytes "in") u -> ~ word_at (bytes "instanceof") u ->
  is_operator u = Ok None.
Proof.
  intros u A N1 N2. destruct (is_operator_spec u) as (o & -> & H). destruct o as [o|]; [|reflexivity]. exfalso.
  destruct u as [|x u]; [discriminate|]. cbn [hd] in A.
  destruct o; try contradiction; destruct H as [I (_ & L & _)];
    rewrite (op_first_not_alnum _ _ _ I L) in A; discriminate.
Qed.
Lemma name_check : forall w, name w -> check_identifier_name w = Ok true.
Proof.
  intros w (W & K & T & U & N1 & N2 & N3 & N4). unfold check_identifier_name.
  rewrite <- (app_nil_r w) at 1. rewrite word_no_keyword by auto. cbn [rbind].
  assert (A : is_alpha_ (hd 0 w) = true) by (destruct W as (c & w' & -> & A & _); exact A).
  rewrite no_operator_alnum; [|apply alpha_alnum; exact A|..].
  2,3: rewrite <- (app_nil_r w); apply word_no_word_at; auto; repeat constructor.
  cbn [rbind existsb].
  destruct (list_eq_dec Z.eq_dec w (bytes "true")) as [->|]; [exfalso; apply T; left; cbn; repeat first [apply Forall2_nil | apply Forall2_cons; [left; lia|]]|].
  destruct (list_eq_dec Z.eq_dec w (bytes "false")) as [->|]; [exfalso; apply T; right; cbn; repeat first [apply Forall2_nil | apply Forall2_cons; [left; lia|]]|].
  destruct (list_eq_dec Z.eq_dec w (bytes "null")) as [->|]; [exfalso; apply U; right; reflexivity|].
  cbn [orb]. rewrite peek0. cbn [rbind]. change (hd0 w) with (hd 0 w). rewrite A. reflexivity.
Qed.
Lemma lower_same : forall w v, all is_alpha_ v -> (forall c, In c v -> 97 <= c) -> (map lower w = v <-> same_letters w v).
Proof.
  intros w v _ V. split.
  - revert v V. induction w as [|c w IH]; intros v V <-; [constructor|]. cbn. constructor; [|apply IH; auto; intros; apply V; right; auto].
    unfold lower, in_range. destruct (Z.leb_spec 65 c), (Z.leb_spec c 90); cbn; lia.
  - intros H. induction H as [|a b w v K F IH]; [reflexivity|]. cbn [map]. f_equal; [|apply IH; intros; apply V; right; auto].
    unfold lower, in_range. destruct (Z.leb_spec 65 a), (Z.leb_spec a 90); cbn; lia.
Qed.
Lemma eqb_list : forall a b, list_eqb a b = true <-> a = b.
Proof. intros. unfold list_eqb. destruct (list_eq_dec Z.eq_dec a b); split; congruence. Qed.
Lemma is_bool_truth : forall w, is_bool w = true <-> truth w.
Proof.
  intros w. unfold is_bool, truth. rewrite orb_true_iff, !eqb_list, !lower_same; [reflexivity|..];
    try (repeat constructor); cbn; intros; intuition lia.
Qed.
Lemma same_word : forall w v, same_letters w v -> word v -> (forall c, In c v -> 97 <= c) -> word w.
Proof.
  intros w v F (c & v' & -> & A & B) V. inversion F as [|a ? w' ? H G]; subst.
  exists a, w'. split; [reflexivity|]. split.
  - apply alpha_range. apply alpha_range in A. lia.
  - assert (V' : forall c, In c v' -> 97 <= c) by (intros; apply V; right; auto). clear F H A V.
    induction G as [|x y w v H G IH]; [constructor|]. inversion B; subst. constructor; [|apply IH; auto; intros; apply V'; right; auto].
    apply alnum_range. apply alnum_range in H2. specialize (V' y (or_introl eq_refl)). lia.
Qed.
Lemma truth_word : forall w, truth w -> word w.
Proof.
  intros w [H|H]; apply (same_word _ _ H); try (cbn; intros; intuition lia).
  - exists 116, (bytes "rue"). repeat split; repeat constructor.
  - exists 102, (bytes "alse"). repeat split; repeat constructor.
Qed.
Lemma same_kw : forall w v, same_letters w v -> In v [bytes "true"; bytes "false"] -> (forall k, w <> kw_spelling k) /\ w <> bytes "typeof" /\ w <> bytes "this".
Proof.
  intros w v F I. assert (M : map lower w = v).
  { apply lower_same; [| |exact F]; destruct I as [<-|[<-|[]]]; try repeat constructor; cbn; intros; intuition lia. }
  split; [|split]; [intros k E | intros E..]; subst w; destruct I as [<-|[<-|[]]]; try destruct k; discriminate.
Qed.
Lemma truth_kw : forall w, truth w -> (forall k, w <> kw_spelling k) /\ w <> bytes "typeof" /\ w <> bytes "this".
Proof. intros w [H|H]; apply (same_kw _ _ H); cbn; tauto. Qed.
Lemma nothing_word : forall w, nothing w -> word w /\ (forall k, w <> kw_spelling k) /\ w <> bytes "typeof".
Proof.
  intros w [->| ->]; (split; [|split; [intros []; discriminate | discriminate]]).
  - exists 117, (bytes "ndefined"). repeat split; repeat constructor.
  - exists 110, (bytes "ull"). repeat split; repeat constructor.
Qed.

(** ** Operators *)
Lemma operator_written : forall o x, o <> OpTernaryIf -> o <> OpTernaryElse ->
  ~ In (hd 0 x) [61; 60; 62; 38; 124] -> (o = OpAdd -> hd 0 x <> 43) -> (o = OpSub -> hd 0 x <> 45) ->
  (word_operator o -> line_blank (hd 0 x)) -> is_operator (spelling o ++ x) = Ok (Some o).
Proof.
  intros o x T1 T2 N P M W.
  destruct (is_operator_spec (spelling o ++ x)) as (r & -> & H). f_equal.
  assert (D : word_operator o \/ In o punctuation) by (destruct o; cbn; unfold word_operator; tauto).
  destruct D as [D|D].
  - specialize (W D).
    assert (AT : word_at (spelling o) (spelling o ++ x)).
    { destruct x as [|c x]; [unfold line_blank in W; cbn in W; lia|]. exists c, x. split; [reflexivity|]. unfold line_blank, blank_after in *. cbn in W. tauto. }
    destruct r as [r|].
    + destruct D as [-> | ->]; destruct r; try reflexivity; exfalso;
        try (destruct H as [I (_ & [q E] & _)]; destruct (op_first_spec _ I) as [K|(c & z & K & J)];
             [subst; cbn in E; discriminate | rewrite K in E; inversion E; subst; cbn in J; intuition lia]).
      * destruct H as (c & q & E & B). cbn in E. inversion E; subst. destruct B as [B|[B|B]]; discriminate.
      * destruct H as (c & q & E & B). cbn in E. inversion E; subst. unfold line_blank in W. cbn in W. lia.
    + exfalso. destruct H as (_ & N1 & N2). destruct D as [-> | ->]; tauto.
  - assert (SW : starts_with (spelling o ++ x) (spelling o)) by (exists x; reflexivity).
    destruct r as [r|].
    + destruct r; try (exfalso; destruct H as (c & q & E & _); destruct (op_first_spec _ D) as [K|(c' & z & K & J)];
        [subst; discriminate | rewrite K in E; inversion E; subst; cbn in J; intuition lia]);
      destruct H as (I & _ & [q E] & L);
      specialize (L (spelling o) (or_intror (or_intror (in_map spelling _ _ D))) SW);
      destruct o; try reflexivity; try congruence; exfalso; cbn in L; try lia; cbn in E;
      try discriminate; inversion E; subst; cbn in N, P, M; 
      try (apply N; cbn; tauto); try (apply P; [reflexivity|reflexivity]); try (apply M; [reflexivity|reflexivity]).
    + exfalso. destruct H as (H & _). destruct (H o D SW) as [[q E]|[q E]];
      destruct o; cbn in E; try discriminate; inversion E as [E']; destruct x as [|c x]; try discriminate; inversion E'; subst; cbn in P, M;
        [apply P|apply M]; reflexivity.
Qed.
Lemma sub_ops : forall c u, In c [41; 44; 93; 59; 125] -> is_operator (c :: u) = Ok None /\ is_keyword (c :: u) = Ok None.
Proof. intros c u H. cbn in H. repeat (destruct H as [<-|H]; [split; reflexivity|]). contradiction. Qed.

(** ** Numbers and strings *)
Lemma number_symbol : forall v r, numeral v -> ends_token r -> hd 0 r <> 46 ->
  symbol_token (v ++ r) = Ok (TLit (LText v), r) /\ is_keyword (v ++ r) = Ok None.
Proof.
  intros v r N E D.
  assert (P : parse_literal_number (v ++ r) = Ok (Some (LText v, r))).
  { apply parse_complete. unfold LexNum.number. destruct N as [N|[N|N]]; tauto. }
  split.
  - unfold symbol_token. rewrite P. reflexivity.
  - unfold parse_literal_number in P. destruct (is_keyword (v ++ r)) as [[k|]| | |] eqn:K; try discriminate. reflexivity.
Qed.
Lemma string_symbol : forall v r, string_body v -> symbol_token (34 :: v ++ 34 :: r) = Ok (TStr v, r).
Proof.
  intros v r B. unfold symbol_token.
  assert (P : parse_literal_number (34 :: v ++ 34 :: r) = Ok None) by reflexivity. rewrite P. cbn [rbind].
  assert (S : string_literal (34 :: v ++ 34 :: r) = Ok (v, r)) by (apply string_literal_spec; auto).
  rewrite peek0. cbn [rbind hd0 hd Z.eqb Pos.eqb]. rewrite S. reflexivity.
Qed.
Lemma number_first : forall v, numeral v -> exists c v', v = c :: v' /\ (is_digit c = true \/ c = 46).
Proof.
  intros v [N|[N|N]].
  - destruct N as [a A N|a b A B|a b e sg x A B NB E S X NX].
    + destruct a as [|c a]; [congruence|]. inversion A; subst. eauto.
    + destruct a as [|c a]; [exists 46, b; split; [reflexivity | right; reflexivity]|]. inversion A; subst. cbn. eauto.
    + destruct a as [|c a]; [eexists _, _; split; [reflexivity | right; reflexivity]|]. inversion A; subst. cbn. eauto.
  - destruct N as [c a C A N]. eexists _, _. split; [reflexivity | left; reflexivity].
  - destruct N as [a A N]. destruct a as [|c a]; [congruence|]. inversion A; subst. eexists _, _. split; [reflexivity|]. left.
    apply orb_true_iff in H1. rewrite !Z.eqb_eq in H1. destruct H1; subst; reflexivity.
Qed.
