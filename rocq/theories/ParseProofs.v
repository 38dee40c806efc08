(** Written expressions are read as what they are. *)
From Coq Require Import List ZArith Bool Lia String.
From Verif Require Import Base StringModel LexModel LexSpec LexProofs LexOps LexTok ParseModel ParseSpec ParseLex.
Import ListNotations.
Local Open Scope Z_scope.

Local Arguments ends_here : simpl never.
Local Arguments blanks : simpl never.
Local Arguments is_operator : simpl never.
Local Arguments is_keyword : simpl never.
Local Arguments is_pre_operation : simpl never.
Local Arguments is_post_operation : simpl never.
Local Arguments symbol_token : simpl never.
Local Arguments Nat.mul : simpl never.
Local Arguments Nat.add : simpl never.

(** ** First characters *)
Definition core_first (c : Z) : Prop := is_alnum_ c = true \/ In c [34; 46; 40; 91; 123].
Definition opnd_first (c : Z) : Prop := core_first c \/ In c [33; 126; 43; 45].
Definition opens (P : Z -> Prop) (t : list Z) : Prop := exists c t', t = c :: t' /\ P c.
Lemma core_opnd : forall t, opens core_first t -> opens opnd_first t.
Proof. intros t (c & t' & -> & H). exists c, t'. split; [reflexivity | left; exact H]. Qed.
Lemma opnd_range : forall c, opnd_first c ->
  (97 <= c <= 122 \/ 65 <= c <= 90 \/ c = 95 \/ 48 <= c <= 57) \/ c = 34 \/ c = 46 \/ c = 40 \/ c = 91 \/ c = 123 \/ c = 33 \/ c = 126 \/ c = 43 \/ c = 45.
Proof. intros c [[H|H]|H]; [apply alnum_range in H; tauto|..]; cbn in H; intuition lia. Qed.
Lemma core_range : forall c, core_first c ->
  (97 <= c <= 122 \/ 65 <= c <= 90 \/ c = 95 \/ 48 <= c <= 57) \/ c = 34 \/ c = 46 \/ c = 40 \/ c = 91 \/ c = 123.
Proof. intros c [H|H]; [apply alnum_range in H; tauto|]; cbn in H; intuition lia. Qed.
Lemma opens_solid : forall t x, opens opnd_first t -> solid (t ++ x).
Proof. intros t x (c & t' & -> & H). apply solid_first. apply opnd_range in H. cbn. intuition lia. Qed.
Lemma opens_ne : forall P t, opens P t -> t <> [].
Proof. intros P t (c & t' & -> & _). discriminate. Qed.
Lemma opens_len : forall P t, opens P t -> (1 <= List.length t)%nat.
Proof. intros P t (c & t' & -> & _). cbn. lia. Qed.

(** ** What may follow *)
Definition after (x : list Z) : Prop := ends_token x /\ ~ (hd 0 x = 58 /\ hd 0 (tl x) = 58).
Definition acc_rest (x : list Z) : Prop := after x /\ exists u, blanks x = Ok u /\ punct u = false.
Definition no_count (x : list Z) : Prop := (hd 0 x = 43 -> hd 0 (tl x) <> 43) /\ (hd 0 x = 45 -> hd 0 (tl x) <> 45).
Definition rest_ok (x : list Z) : Prop := acc_rest x /\ no_count x.
Definition toks_stop (x u : list Z) : Prop :=
  rest_ok x /\ blanks x = Ok u /\
  exists o e, is_operator u = Ok o /\ ends_here u = Ok e /\
    match o with
    | Some OpTernaryIf | Some OpTernaryElse => True
    | Some _ => e = true
    | None => e || newline_in x u = true
    end.
Definition sub_stop (x u : list Z) : Prop := toks_stop x u /\ hd 0 u <> 63.

Lemma after_first : forall x, In (hd 0 x) ender -> hd 0 x <> 58 -> after x.
Proof. intros x I N. split; [left; exact I | tauto]. Qed.
Lemma trivia_after : forall b x, trivia b -> b <> [] -> after (b ++ x).
Proof.
  intros b x T N. assert (H := trivia_hd b x T N). apply after_first; cbn in H |- *; intuition.
Qed.
Lemma trivia_no_count : forall b x, trivia b -> b <> [] -> no_count (b ++ x).
Proof. intros b x T N. assert (H := trivia_hd b x T N). cbn in H. unfold no_count. split; intros E; rewrite E in H; intuition lia. Qed.
Lemma rest_intro : forall b u, trivia b -> solid u -> punct u = false -> (b = [] -> after u /\ no_count u) -> rest_ok (b ++ u).
Proof.
  intros b u T S P H. destruct b as [|c b].
  - destruct (H eq_refl) as [A N]. split; [|exact N]. split; [exact A|]. exists u. split; [|exact P].
    apply (blanks_solid [] u); [constructor | exact S].
  - split; [|apply trivia_no_count; [exact T | discriminate]]. split; [apply trivia_after; [exact T | discriminate]|].
    exists u. split; [apply blanks_solid; auto | exact P].
Qed.
Lemma punct_false : forall u, ~ In (hd 0 u) [46; 91; 40] -> punct u = false.
Proof. intros u H. unfold punct. destruct (existsb _ _) eqn:E; [|reflexivity]. apply existsb_In in E. unfold hd0 in E. contradiction. Qed.
Lemma punct_true : forall u, In (hd 0 u) [46; 91; 40] -> punct u = true.
Proof. intros u H. unfold punct. apply existsb_In. exact H. Qed.
Lemma newline_app : forall b u, In 10 b -> newline_in (b ++ u) u = true.
Proof.
  intros b u H. unfold newline_in. rewrite app_length. replace (List.length b + List.length u - List.length u)%nat with (List.length b) by lia.
  rewrite firstn_app, firstn_all, Nat.sub_diag. cbn [firstn]. rewrite app_nil_r. apply existsb_In. exact H.
Qed.

(** ** The ends *)
Lemma ends_closing : forall u, closing u -> ends_here u = Ok true /\ is_operator u = Ok None.
Proof.
  intros u H. unfold closing in H. destruct u as [|c u]; [split; reflexivity|]. cbn [hd In] in H.
  repeat (destruct H as [<-|H]; [split; reflexivity|]). contradiction.
Qed.
Lemma closing_stop : forall b u, trivia b -> closing u -> sub_stop (b ++ u) u.
Proof.
  intros b u T C. destruct (ends_closing u C) as [E O]. unfold closing in C.
  assert (S : solid u) by (apply solid_hd; cbn in C |- *; intuition lia).
  assert (P : punct u = false) by (apply punct_false; cbn in C |- *; intuition lia).
  split; [|cbn in C; intuition lia]. split; [|split; [apply blanks_solid; auto|]].
  - apply rest_intro; auto. intros _. split; [|unfold no_count; cbn in C; intuition lia].
    apply after_first; cbn in C |- *; intuition.
  - exists None, true. repeat split; auto.
Qed.
Lemma colon_stop : forall b u, trivia b -> hd 0 u = 58 -> hd 0 (tl u) <> 58 -> sub_stop (b ++ u) u.
Proof.
  intros b [|c u] T C N; [discriminate|]. cbn in C, N. subst c.
  assert (S : solid (58 :: u)) by (apply solid_first; cbn; intuition lia).
  split; [|cbn; lia]. split; [|split; [apply blanks_solid; auto|]].
  - apply rest_intro; auto. intros _. split; [|unfold no_count; cbn; lia].
    split; [left; cbn; tauto | cbn; tauto].
  - exists (Some OpTernaryElse), false. repeat split; try reflexivity.
Qed.
Lemma question_stop : forall b u, trivia b -> toks_stop (b ++ 63 :: u) (63 :: u).
Proof.
  intros b u T. assert (S : solid (63 :: u)) by (apply solid_first; cbn; intuition lia).
  split; [|split; [apply blanks_solid; auto|]].
  - apply rest_intro; auto. intros _. split; [|unfold no_count; cbn; lia]. apply after_first; cbn; [tauto | lia].
  - exists (Some OpTernaryIf), false. repeat split; try reflexivity.
Qed.

(** ** Operators between operands *)
Lemma op_after_hd : forall b t x, trivia b -> opens opnd_first t ->
  In (hd 0 (b ++ t ++ x)) [32; 9; 10; 13; 47] \/ opnd_first (hd 0 (b ++ t ++ x)).
Proof.
  intros b t x T O. destruct b as [|c b]; [right | left; apply trivia_hd; [exact T | discriminate]].
  destruct O as (c & t' & -> & H). exact H.
Qed.
Lemma hd_app2 : forall (b t x : list Z), t <> [] -> hd 0 (b ++ t ++ x) = hd 0 (b ++ t).
Proof. intros [|c b] [|d t] x H; try congruence; reflexivity. Qed.
Lemma op_step : forall o b1 b2 t x, trivia b1 -> trivia b2 -> o <> OpTernaryIf -> o <> OpTernaryElse ->
  opens opnd_first t -> glue o b1 (b2 ++ t) ->
  rest_ok (b1 ++ spelling o ++ b2 ++ t ++ x) /\
  blanks (b1 ++ spelling o ++ b2 ++ t ++ x) = Ok (spelling o ++ b2 ++ t ++ x) /\
  is_operator (spelling o ++ b2 ++ t ++ x) = Ok (Some o) /\ ends_here (spelling o ++ b2 ++ t ++ x) = Ok false.
Proof.
  intros o b1 b2 t x T1 T2 N1 N2 O (G1 & G2 & G3 & G4).
  assert (H := op_after_hd b2 t x T2 O). rewrite <- (hd_app2 b2 t x (opens_ne _ _ O)) in G1, G2, G3, G4.
  set (y := b2 ++ t ++ x) in *. clearbody y. clear T2 O t x.
  assert (F : (hd 0 y = 32 \/ hd 0 y = 9 \/ hd 0 y = 10 \/ hd 0 y = 13 \/ hd 0 y = 47) \/ opnd_first (hd 0 y)).
  { destruct H as [H|H]; [|right; exact H]. cbn [In] in H. intuition. }
  clear H. assert (R : hd 0 y <> 61 /\ hd 0 y <> 60 /\ hd 0 y <> 62 /\ hd 0 y <> 38 /\ hd 0 y <> 124 /\ hd 0 y <> 42 /\ hd 0 y <> 58).
  { destruct F as [F|F]; [lia|]. apply opnd_range in F. lia. }
  clear F. destruct R as (R1 & R2 & R3 & R4 & R5 & R6 & R7).
  assert (S : solid (spelling o ++ y)).
  { destruct o; try congruence; try (apply solid_first; cbn; intuition lia);
      (split; [cbn; intuition lia | split; cbn; intros; try lia; auto; try split; auto; lia]). }
  assert (P : punct (spelling o ++ y) = false) by (destruct o; reflexivity).
  split; [|split; [|split]].
  - apply rest_intro; auto. intros ->. split.
    + assert (W : ~ word_operator o) by (intros K; apply G4 in K; tauto).
      destruct o; try congruence; try (apply after_first; cbn; [tauto | lia]);
        try (exfalso; apply W; unfold word_operator; tauto).
      split; [right; exists y; reflexivity | cbn; lia].
    + destruct o; unfold no_count; cbn; split; intros; try lia; auto; discriminate.
  - apply blanks_solid; auto.
  - apply operator_written; auto; [cbn; intuition lia | intros K; apply G4 in K; tauto].
  - destruct o; try congruence; reflexivity.
Qed.

(** ** Prefixes *)
Lemma pre_none : forall c s, core_first c -> ~ word_at (bytes "typeof") (c :: s) -> is_pre_operation (c :: s) = Ok None.
Proof.
  intros c s H W. apply core_range in H. unfold is_pre_operation. cbn [first_of].
  destruct (word_op_spec (bytes "typeof") (c :: s)) as (b & E & B); [cbn; intuition lia|].
  rewrite E. destruct b; [exfalso; apply W; tauto|]. unfold is_dec, is_inc, is_dec_inc_invalid.
  rewrite !two_cons. cbn [rbind]. unfold op_test, all_of, is, isnt. rewrite !peek0. cbn [rbind hd0 hd].
  destruct (Z.eqb_spec c 45); [lia|]. destruct (Z.eqb_spec c 43); [lia|]. destruct (Z.eqb_spec c 33); [lia|]. destruct (Z.eqb_spec c 126); [lia|].
  reflexivity.
Qed.
Lemma pre_some : forall q y, q <> PreInvalid -> ~ In (hd 0 y) [61; 43; 45] -> (q = PreTypeof -> line_blank (hd 0 y)) ->
  is_pre_operation (pre_spelling q ++ y) = Ok (Some q).
Proof.
  intros q y N H T. destruct q; try congruence; try reflexivity.
  - destruct y as [|c y]; [reflexivity|]. cbn in H. unfold is_pre_operation. cbn. destruct (Z.eqb_spec c 61); [exfalso; lia|]. reflexivity.
  - specialize (T eq_refl). destruct y as [|c y]; [unfold line_blank in T; cbn in T; lia|]. unfold line_blank in T. cbn in T.
    destruct T as [->|[->| ->]]; reflexivity.
  - destruct y as [|c y]; [reflexivity|]. cbn in H. unfold is_pre_operation, is_dec_inc_invalid. cbn.
    destruct (Z.eqb_spec c 43); [exfalso; lia|]. destruct (Z.eqb_spec c 45); [exfalso; lia|]. reflexivity.
  - destruct y as [|c y]; [reflexivity|]. cbn in H. unfold is_pre_operation, is_dec_inc_invalid. cbn.
    destruct (Z.eqb_spec c 43); [exfalso; lia|]. destruct (Z.eqb_spec c 45); [exfalso; lia|]. reflexivity.
Qed.
Lemma prefix_read : forall p pt y, prefix p pt -> opens core_first y -> is_pre_operation y = Ok None -> ends_here y = Ok false ->
  is_pre_operation (pt ++ y) = Ok p /\ ends_here (pt ++ y) = Ok false /\
  exists s1 : ptr, (match p with None => @Ok ptr (pt ++ y) | Some PreInvalid => @Thr ptr | Some q => @Ok ptr (adv (List.length (pre_spelling q)) (pt ++ y)) end) = @Ok ptr s1
             /\ blanks s1 = Ok y.
Proof.
  intros p pt y P O N E. assert (SO : solid y) by (rewrite <- (app_nil_r y); apply opens_solid, core_opnd, O).
  destruct p as [q|]; cbn [prefix] in P.
  - destruct P as (NI & b & T & -> & TY). rewrite <- app_assoc.
    assert (H : ~ In (hd 0 (b ++ y)) [61; 43; 45] /\ (q = PreTypeof -> line_blank (hd 0 (b ++ y)))).
    { destruct b as [|c b].
      - split; [destruct O as (c & y' & -> & H); apply core_range in H; cbn; intuition lia|].
        intros K. apply TY in K. unfold line_blank in K. cbn in K. lia.
      - split; [|exact TY]. assert (I := trivia_hd _ y T ltac:(discriminate)). cbn [In] in I |- *. intuition lia. }
    destruct H as [H1 H2]. split; [apply pre_some; auto|]. split.
    + destruct q; try congruence; reflexivity.
    + exists (b ++ y). split; [|apply blanks_solid; auto]. destruct q; try congruence; rewrite adv_app; reflexivity.
  - subst pt. cbn [app]. split; [exact N|]. split; [exact E|]. exists y. split; [reflexivity|]. apply (blanks_solid [] y); [constructor | exact SO].
Qed.

(** ** Assignments *)
Lemma is_assign_spec : forall o, is_assign o = true <-> assignment o.
Proof. intros []; cbn; unfold assignment; cbn; split; intros H; try reflexivity; try discriminate; try tauto; exfalso; intuition discriminate. Qed.
Lemma is_assign_not : forall o, ~ assignment o -> is_assign o = false.
Proof. intros o H. destruct (is_assign o) eqn:E; [|reflexivity]. apply is_assign_spec in E. contradiction. Qed.
Lemma last_call_spec : forall acs, ~ ends_in_call acs -> last_call acs = false.
Proof.
  fix IH 1. intros [|a acs] H; [reflexivity|]. specialize (IH acs). destruct acs as [|b acs].
  - destruct a; cbn in *; tauto.
  - change (~ ends_in_call (ACons b acs)) in H. specialize (IH H). destruct a; exact IH.
Qed.
Lemma assigns_ok : forall tl h, assigns h tl -> assign_ok h tl = true.
Proof.
  assert (NA : forall tl, no_assignment tl -> has_assign tl = false).
  { fix IH 1. intros [|o a tl] H; [reflexivity|]. destruct H as [H1 H2]. cbn [has_assign]. rewrite (is_assign_not _ H1), (IH tl H2). reflexivity. }
  fix IH 1. intros [|o a tl] h H; [reflexivity|]. cbn [assigns] in H. cbn [assign_ok].
  destruct H as [(A & (w & acs & -> & L) & B)|(N & B)].
  - rewrite (proj2 (is_assign_spec o) A). rewrite (IH tl a B). cbn. rewrite (last_call_spec acs L). reflexivity.
  - rewrite (is_assign_not _ N), (NA tl B). reflexivity.
Qed.

(** ** The end of an expression *)
Lemma ends_at_stop : forall r u, ends_at r u -> sub_stop r u.
Proof.
  intros r u (b & T & -> & [C|[[C N]|[[NB K]|[NL K]]]]).
  - apply closing_stop; auto.
  - apply colon_stop; auto.
  - destruct K as (k & x & -> & NK & H).
    assert (V : k <> KwVarArgs) by (intros ->; apply NK; cbn; tauto).
    assert (A : is_alnum_ (hd 0 (kw_spelling k ++ x)) = true) by (destruct k; try congruence; reflexivity).
    assert (KW : is_keyword (kw_spelling k ++ x) = Ok (Some k)).
    { destruct (is_keyword_spec (kw_spelling k ++ x)) as (o & -> & S). f_equal. apply S. exists x. split; [reflexivity|]. left.
      unfold special. cbn in H |- *. intuition. }
    assert (E : ends_here (kw_spelling k ++ x) = Ok true).
    { unfold ends_here. rewrite KW. cbn [rbind].
      assert (is_anonymous (Some k) (kw_spelling k ++ x) = Ok false) as -> by (destruct k; try reflexivity; exfalso; apply NK; cbn; tauto).
      cbn [rbind]. rewrite peek0. cbn [rbind]. f_equal. apply orb_true_iff. right.
      destruct k; try reflexivity; exfalso; apply NK; cbn; tauto. }
    assert (X : is_alnum_ (hd 0 x) = false).
    { destruct (is_alnum_ (hd 0 x)) eqn:Q; [|reflexivity]. apply alnum_range in Q. cbn in H. intuition lia. }
    assert (O : is_operator (kw_spelling k ++ x) = Ok None).
    { assert (W : word (kw_spelling k)) by (destruct k; try congruence; eexists _, _; repeat split; repeat constructor).
      apply no_operator_alnum; [exact A|..]; apply word_no_word_at; auto; try (repeat constructor); destruct k; discriminate. }
    assert (Z1 : 48 <= hd 0 (kw_spelling k ++ x)) by (apply alnum_range in A; lia).
    assert (S : solid (kw_spelling k ++ x)) by (apply solid_hd; cbn [In]; intuition lia).
    assert (P : punct (kw_spelling k ++ x) = false) by (apply punct_false; apply alnum_range in A; cbn [In]; intuition lia).
    split; [|apply alnum_range in A; lia]. split; [apply rest_intro; auto; congruence|]. split; [apply blanks_solid; auto|].
    exists None, true. auto.
  - destruct K as [NF K].
    assert (NB : b <> []) by (intros ->; contradiction).
    assert (Q : ~ In (hd 0 u) [32; 9; 10; 13; 47; 42; 46; 91; 40; 63] /\ is_operator u = Ok None).
    { destruct K as [[A W]|[K|[(x & -> & N)|[[x ->]|[x ->]]]]].
      - split; [apply alnum_range in A; cbn [In]; intuition lia|]. apply no_operator_alnum; [exact A|..]; intros (c & x & E & B).
        + apply (W OpIn (c :: x)); [right; reflexivity | exact E | unfold line_blank, blank_after in *; cbn; tauto].
        + apply (W OpInstanceof (c :: x)); [left; reflexivity | exact E | unfold line_blank, blank_after in *; cbn; tauto].
      - destruct u as [|c u]; [cbn in K; intuition discriminate|]. cbn [hd] in *. cbn in K.
        repeat (destruct K as [<-|K]; [split; [cbn; intuition discriminate | reflexivity]|]). contradiction.
      - split; [cbn; intuition discriminate|]. destruct x as [|c x]; [reflexivity|]. cbn in N. unfold is_operator. cbn.
        destruct (Z.eqb_spec c 61); [congruence|]. reflexivity.
      - split; [cbn; intuition discriminate | reflexivity].
      - split; [cbn; intuition discriminate | reflexivity]. }
    destruct Q as [Q O].
    assert (S : solid u) by (apply solid_hd; cbn [In] in *; tauto).
    assert (P : punct u = false) by (apply punct_false; cbn [In] in *; tauto).
    assert (E : exists e, ends_here u = Ok e).
    { unfold ends_here. destruct (is_keyword_spec u) as (o & -> & KS). cbn [rbind].
      assert (is_anonymous o u = Ok false) as ->.
      { destruct o as [[]|]; try reflexivity. exfalso. apply NF. destruct (proj1 (KS _) eq_refl) as (x & -> & _). exists x. reflexivity. }
      cbn [rbind]. rewrite peek0. cbn [rbind]. eauto. }
    destruct E as [e E]. split; [|cbn [In] in Q; intros X; apply Q; rewrite X; tauto].
    split; [apply rest_intro; auto; congruence|]. split; [apply blanks_solid; auto|].
    exists None, e. repeat split; auto. rewrite newline_app by exact NL. apply orb_true_r.
Qed.
