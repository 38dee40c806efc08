(** Texts that are read in another way than their writing suggests, or not at all. *)
From Coq Require Import List ZArith Bool Lia String.
From Verif Require Import Base StringModel LexModel LexSpec LexProofs LexOps LexTok LexNum ParseModel ParseSpec ParseLex ParseProofs ParseMain ParseSound.
Import ListNotations.
Local Open Scope Z_scope.

Local Arguments ends_here : simpl never.
Local Arguments blanks : simpl never.
Local Arguments is_operator : simpl never.
Local Arguments is_keyword : simpl never.
Local Arguments is_pre_operation : simpl never.
Local Arguments is_post_operation : simpl never.
Local Arguments symbol_token : simpl never.
Local Arguments Nat.mul : simpl never.
Local Arguments Nat.add : simpl never.
Local Arguments adv : simpl never.

Lemma blanks_here : forall u, solid u -> blanks u = Ok u.
Proof. intros u S. apply (blanks_solid [] u); [constructor | exact S]. Qed.

Section Refute.
Variable other : okind -> ptr -> res (Z * ptr).
Variable kind : literal -> option bool.
Variable known is_type : list Z -> bool.
Variable makes : pexpr -> bool.
Notation parse := (parse other kind known is_type makes).
Notation p_sub := (p_sub other kind known is_type makes).
Notation p_toks := (p_toks other kind known is_type makes).
Notation p_opnd := (p_opnd other kind known is_type makes).
Notation p_core := (p_core other kind known is_type makes).
Notation p_accs := (p_accs other kind known is_type makes).
Notation p_args := (p_args other kind known is_type makes).
Notation written := (written other kind known is_type makes).
Notation w_opnd := (w_opnd other kind known is_type makes).
Notation w_ops := (w_ops other kind known is_type makes).
Notation P_expr := (P_expr other kind known is_type makes).
Notation P_opnd := (P_opnd other kind known is_type makes).
Notation P_ops := (P_ops other kind known is_type makes).
Notation P_acc := (P_acc other kind known is_type makes).
Notation P_accs := (P_accs other kind known is_type makes).
Notation P_core := (P_core other kind known is_type makes).

Lemma opnd_read : forall a t, w_opnd a t -> P_opnd a t.
Proof. apply written_read. Qed.
Lemma ops_read : forall a t, w_ops a t -> P_ops a t.
Proof. apply written_read. Qed.
Lemma expr_read : forall a t, written a t -> P_expr a t.
Proof. apply written_read. Qed.
Lemma fuel_S : forall s, exists f, fuel_for s = Datatypes.S (Datatypes.S (Datatypes.S f)) /\ (8 * len s + 5 = f)%nat.
Proof. intros s. unfold fuel_for. exists (8 * len s + 5)%nat. split; lia. Qed.

(** The start of every expression. *)
Lemma start : forall f t x, opens opnd_first t -> ends_here (t ++ x) = Ok false ->
  p_sub (Datatypes.S f) (t ++ x) =
  do r <- p_toks f (t ++ x);
  let '(h, tl, v) := r in
  if negb (assign_ok h tl) then Thr
  else if hd0 v =? 63 then
    do r1 <- p_sub f (adv 1 v);
    match fst r1 with
    | PNone => Thr
    | PSome e1 =>
        if negb (hd0 (snd r1) =? 58) then Thr
        else do r2 <- p_sub f (adv 1 (snd r1)); Ok (PSome (PExpr h tl (PTern e1 (fst r2))), snd r2)
    end
  else Ok (PSome (PExpr h tl PNoTern), v).
Proof.
  intros f t x O E. rewrite p_sub_eq. rewrite blanks_here by (apply opens_solid, O). cbn [rbind].
  assert (existsb (Z.eqb (hd0 (t ++ x))) [41; 44; 93; 0; 125] = false) as ->.
  { destruct O as (c & t' & -> & H). apply opnd_range in H. destruct (existsb _ _) eqn:Q; [|reflexivity].
    exfalso. apply existsb_In in Q. cbn in Q. intuition lia. }
  rewrite E. reflexivity.
Qed.

(** ** Missing operands *)
Lemma acc_noindex : forall b, trivia b -> b <> [] -> P_acc (PIdx PNone) (91 :: b ++ [93]).
Proof.
  intros b T N. split; [cbn; tauto|]. split; [exact I|]. intros x f _ L. unfold acc_step.
  assert (EQ : (91 :: b ++ [93]) ++ x = 91 :: b ++ 93 :: x) by (cbn [app]; rewrite <- app_assoc; reflexivity).
  rewrite EQ. cbn [hd0 hd Z.eqb Pos.eqb]. change (adv 1 (91 :: b ++ 93 :: x)) with (b ++ 93 :: x).
  destruct f as [|f]; [cbn in L; lia|]. rewrite p_sub_eq.
  rewrite blanks_solid by (auto; apply solid_first; cbn; intuition lia). cbn [rbind].
  assert (existsb (Z.eqb (hd0 (b ++ 93 :: x))) [41; 44; 93; 0; 125] = false) as ->.
  { assert (H := trivia_hd b (93 :: x) T N). destruct (existsb _ _) eqn:Q; [|reflexivity].
    exfalso. apply existsb_In in Q. unfold hd0 in Q. cbn [In] in *. intuition lia. }
  destruct (ends_closing (93 :: x)) as [-> _]; [cbn; tauto|]. reflexivity.
Qed.
Theorem index_missing : forall w b r u, name w -> known w = true -> is_type w = false -> trivia b -> b <> [] -> ends_at r u ->
  parse (w ++ 91 :: b ++ 93 :: r) = Ok (PSome (PExpr (POpd None (CWord w) (ACons (PIdx PNone) ANil) None) PNil PNoTern), u).
Proof.
  intros w b r u NW KW TW T NB E.
  assert (A : P_accs (ACons (PIdx PNone) ANil) (91 :: b ++ [93])).
  { rewrite <- (app_nil_r (91 :: b ++ [93])). change ((91 :: b ++ [93]) ++ []) with ([] ++ (91 :: b ++ [93]) ++ []).
    apply accs_case; [constructor | apply acc_noindex; auto | left; auto]. }
  assert (O : P_opnd (POpd None (CWord w) (ACons (PIdx PNone) ANil) None) ([] ++ w ++ (91 :: b ++ [93]) ++ postfix None)).
  { apply opnd_case with (s := SName); auto.
    - reflexivity.
    - apply core_name; auto.
    - split; exact I.
    - intros [K|K]; discriminate.
    - do 3 right. left. exists w. auto. }
  pose proof (expr_case other kind known is_type makes _ PNil PNoTern _ [] [] O (ops_nil _ _ _ _ _) (or_introl (conj eq_refl eq_refl)) I) as [_ X].
  specialize (X [] r u (fuel_for (w ++ 91 :: b ++ 93 :: r)) (tr_nil) (ends_at_stop _ _ E)).
  assert (EQ : [] ++ (([] ++ w ++ (91 :: b ++ [93]) ++ postfix None) ++ [] ++ []) ++ r = w ++ 91 :: b ++ 93 :: r).
  { cbn [postfix app]. rewrite !app_nil_r. repeat (rewrite <- app_assoc; cbn [app]). reflexivity. }
  rewrite EQ in X. apply X. unfold fuel_for. repeat (rewrite app_length; cbn [postfix List.length]). lia.
Qed.
Theorem index_empty_refused : forall w r, name w -> known w = true -> is_type w = false -> parse (w ++ 91 :: 93 :: r) = Thr.
Proof.
  intros w r NW KW TW. unfold ParseModel.parse. destruct (fuel_S (w ++ 91 :: 93 :: r)) as (f & -> & L).
  destruct (core_name other kind known is_type makes w NW KW) as [O H].
  destruct (H (91 :: 93 :: r)) as (PN & EH & HC); [apply after_first; cbn; [tauto | lia] | intros [K|K]; discriminate|].
  rewrite start by (auto; apply core_opnd, O). rewrite p_toks_eq, p_opnd_eq, PN. cbn [rbind].
  rewrite blanks_here by (apply opens_solid, core_opnd, O). cbn [rbind].
  rewrite app_length in L. rewrite HC by (try discriminate; lia). cbn [rbind take_pre ty].
  rewrite blanks_here by (apply solid_first; cbn; intuition lia). cbn [rbind].
  change (punct (91 :: 93 :: r)) with true. cbn iota. cbn [access_ok]. rewrite TW. cbn [negb].
  destruct f as [|f]; [lia|]. rewrite p_accs_eq. unfold acc_step. cbn [hd0 hd Z.eqb Pos.eqb].
  change (adv 1 (91 :: 93 :: r)) with (93 :: r). destruct f as [|f]; [lia|]. rewrite p_sub_eq.
  rewrite blanks_here by (apply solid_first; cbn; intuition lia). reflexivity.
Qed.
Theorem else_missing : forall h t1 e1 t2 b1 b2 b3 b4 u, w_opnd h t1 -> written e1 t2 -> trivia b1 -> trivia b2 -> trivia b3 -> trivia b4 ->
  closing u -> b4 <> [] \/ hd 0 u = 59 ->
  parse (t1 ++ b1 ++ 63 :: b2 ++ t2 ++ b3 ++ 58 :: b4 ++ u) = Ok (PSome (PExpr h PNil (PTern e1 PNone)), u).
Proof.
  intros h t1 e1 t2 b1 b2 b3 b4 u WH W1 T1 T2 T3 T4 CU D. unfold ParseModel.parse.
  set (rest := b2 ++ t2 ++ b3 ++ 58 :: b4 ++ u). destruct (fuel_S (t1 ++ b1 ++ 63 :: rest)) as (f & -> & L).
  destruct (opnd_read _ _ WH) as [O H]. destruct (expr_read _ _ W1) as [O1 H1].
  assert (ST := question_stop b1 rest T1). destruct (H (b1 ++ 63 :: rest)) as [EH _]; [apply ST|].
  rewrite start by auto. destruct (ops_nil other kind known is_type makes) as [_ X].
  change (t1 ++ b1 ++ 63 :: rest) with (t1 ++ [] ++ b1 ++ 63 :: rest).
  rewrite (X h t1 (opnd_read _ _ WH) _ _ _ ST) by (rewrite app_nil_r; rewrite !app_length in L; lia). cbn [rbind assign_ok negb hd0 hd Z.eqb Pos.eqb].
  change (adv 1 (63 :: rest)) with rest. unfold rest. unfold rest in L.
  assert (F : hd 0 (b4 ++ u) <> 58).
  { destruct b4 as [|c b4]; [cbn [app]; unfold closing in CU; cbn in CU; intuition lia|].
    assert (K := trivia_hd (c :: b4) u T4 ltac:(discriminate)). cbn [In] in K. intuition lia. }
  rewrite (H1 b2 (b3 ++ 58 :: b4 ++ u) (58 :: b4 ++ u)); [|exact T2 | apply colon_stop; auto |].
  2:{ repeat (rewrite app_length in L; cbn [List.length] in L). lia. }
  cbn [rbind fst snd hd0 hd Z.eqb Pos.eqb negb]. change (adv 1 (58 :: b4 ++ u)) with (b4 ++ u). rewrite p_sub_eq.
  rewrite blanks_solid; [|exact T4 | apply solid_hd; unfold closing in CU; cbn in CU |- *; intuition lia]. cbn [rbind].
  assert (existsb (Z.eqb (hd0 (b4 ++ u))) [41; 44; 93; 0; 125] = false) as ->.
  { destruct (existsb _ _) eqn:Q; [|reflexivity]. exfalso. apply existsb_In in Q. unfold hd0 in Q.
    destruct b4 as [|c b4]; [destruct D as [D|D]; [congruence|]; cbn in Q; rewrite D in Q; intuition lia|].
    assert (K := trivia_hd (c :: b4) u T4 ltac:(discriminate)). cbn [In] in K, Q. intuition lia. }
  destruct (ends_closing u CU) as [-> _]. reflexivity.
Qed.

(** ** Signs *)
Lemma sign_core : forall q r f pre, In q [PreNot; PrePos; PreNeg; PreBwc; PreInc; PreDec] -> p_core (Datatypes.S f) pre (pre_spelling q ++ r) = Thr.
Proof.
  intros q r f pre I.
  assert (X : exists c x, pre_spelling q ++ r = c :: x /\ In c [33; 43; 45; 126]).
  { cbn [In] in I. repeat (destruct I as [<-|I]; [eexists _, _; (split; [reflexivity | cbn; tauto])|]); contradiction. }
  destruct X as (c & x & -> & C). rewrite p_core_eq.
  assert (is_keyword (c :: x) = Ok None) as -> by (cbn [In] in C; repeat (destruct C as [<-|C]; [reflexivity|]); contradiction).
  assert (R : c = 33 \/ c = 43 \/ c = 45 \/ c = 126) by (cbn [In] in C; intuition).
  cbn [hd0 hd rbind]. destruct (Z.eqb_spec c 40); [lia|]. destruct (Z.eqb_spec c 91); [lia|]. destruct (Z.eqb_spec c 123); [lia|].
  assert (PL : parse_literal_number (c :: x) = Ok None).
  { unfold parse_literal_number. assert (is_keyword (c :: x) = Ok None) as -> by (cbn [In] in C; repeat (destruct C as [<-|C]; [reflexivity|]); contradiction).
    rewrite !peek0. cbn [rbind hd0 hd]. destruct (Z.eqb_spec c 39); [lia|]. destruct (Z.eqb_spec c 48); [lia|]. cbn [rbind].
    rewrite peek0. cbn [rbind hd0 hd]. unfold is_digit, in_range. destruct (Z.leb_spec 48 c), (Z.leb_spec c 57), (Z.eqb_spec c 46); try lia; reflexivity. }
  destruct (word_token_ok (c :: x)) as (w & y & WT & EQ & NW & _); [discriminate|].
  unfold symbol_token. rewrite PL. cbn [rbind]. rewrite peek0. cbn [rbind hd0 hd]. destruct (Z.eqb_spec c 34); [lia|]. rewrite WT. cbn [rbind fst snd].
  destruct w as [|d w]; [congruence|]. inversion EQ; subst d x. clear EQ.
  assert (NL : forall v, is_alpha_ (hd 0 v) = true -> list_eqb (c :: w) v = false).
  { intros v A. destruct (list_eqb (c :: w) v) eqn:E; [|reflexivity]. apply eqb_list in E. subst v. apply alpha_range in A. cbn in A. lia. }
  unfold word_core. rewrite !NL by reflexivity. cbn [orb].
  assert (is_bool (c :: w) = false) as ->.
  { destruct (is_bool (c :: w)) eqn:E; [|reflexivity]. apply is_bool_truth in E. apply truth_word in E. destruct E as (d & v & E & A & _). inversion E; subst.
    apply alpha_range in A. lia. }
  destruct (check_identifier_name (c :: w)) as [ok| | |] eqn:CK; cbn [rbind]; try reflexivity.
  - unfold check_identifier_name in CK. apply bind_ok in CK. destruct CK as ([k|] & _ & CK); [discriminate|].
    apply bind_ok in CK. destruct CK as ([o|] & _ & CK); [discriminate|]. destruct (existsb _ _) in CK; [discriminate|].
    rewrite peek0 in CK. cbn [rbind hd0 hd] in CK. inversion CK; subst ok.
    destruct (is_alpha_ c) eqn:A; [apply alpha_range in A; lia|]. reflexivity.
  - exfalso. unfold check_identifier_name in CK. destruct (is_keyword_spec (c :: w)) as ([k|] & E & _); rewrite E in CK; cbn [rbind] in CK; [discriminate|].
    destruct (is_operator_spec (c :: w)) as ([o|] & E2 & _); rewrite E2 in CK; cbn [rbind] in CK; [discriminate|]. destruct (existsb _ _) in CK; [discriminate|].
    rewrite peek0 in CK. discriminate.
  - exfalso. unfold check_identifier_name in CK. destruct (is_keyword_spec (c :: w)) as ([k|] & E & _); rewrite E in CK; cbn [rbind] in CK; [discriminate|].
    destruct (is_operator_spec (c :: w)) as ([o|] & E2 & _); rewrite E2 in CK; cbn [rbind] in CK; [discriminate|]. destruct (existsb _ _) in CK; [discriminate|].
    rewrite peek0 in CK. discriminate.
Qed.
Theorem signs_refused : forall q q' b r, In q [PreNot; PrePos; PreNeg; PreBwc] -> In q' [PreNot; PrePos; PreNeg; PreBwc; PreInc; PreDec] -> trivia b ->
  b <> [] \/ In q' [PreNot; PreBwc] -> parse (pre_spelling q ++ b ++ pre_spelling q' ++ r) = Thr.
Proof.
  intros q q' b r I I' T D. unfold ParseModel.parse. destruct (fuel_S (pre_spelling q ++ b ++ pre_spelling q' ++ r)) as (f & -> & L).
  assert (OQ : opens opnd_first (pre_spelling q)).
  { cbn [In] in I. repeat (destruct I as [<-|I]; [eexists _, _; split; [reflexivity | right; cbn; tauto]|]); contradiction. }
  assert (H : ~ In (hd 0 (b ++ pre_spelling q' ++ r)) [61; 43; 45]).
  { destruct b as [|c b].
    - destruct D as [D|D]; [congruence|]. cbn [In] in D. destruct D as [<-|[<-|[]]]; cbn; lia.
    - assert (K := trivia_hd (c :: b) (pre_spelling q' ++ r) T ltac:(discriminate)). cbn [In] in K |- *. intuition lia. }
  assert (EH : ends_here (pre_spelling q ++ b ++ pre_spelling q' ++ r) = Ok false).
  { cbn [In] in I. repeat (destruct I as [<-|I]; [reflexivity|]); contradiction. }
  assert (NI : q <> PreInvalid /\ q <> PreTypeof) by (split; intros ->; cbn in I; intuition discriminate).
  rewrite start by auto. rewrite p_toks_eq, p_opnd_eq. rewrite pre_some by (try tauto; intros ->; tauto). cbn [rbind].
  assert (X : (match Some q with None => @Ok ptr (pre_spelling q ++ b ++ pre_spelling q' ++ r) | Some PreInvalid => @Thr ptr
                | Some q0 => @Ok ptr (adv (len (pre_spelling q0)) (pre_spelling q ++ b ++ pre_spelling q' ++ r)) end) = Ok (b ++ pre_spelling q' ++ r)).
  { destruct q; try tauto; rewrite adv_app; reflexivity. }
  cbn iota in X. rewrite X. cbn [rbind]. rewrite blanks_solid; [|exact T|].
  2:{ cbn [In] in I'. repeat (destruct I' as [<-|I']; [apply solid_first; cbn; intuition lia|]); contradiction. }
  cbn [rbind]. destruct f as [|f]; [lia|]. rewrite sign_core by auto. reflexivity.
Qed.
Theorem sign_at_end : forall q b, In q [PreNot; PrePos; PreNeg; PreBwc; PreInc; PreDec] -> trivia b -> parse (pre_spelling q ++ b) = UB.
Proof.
  intros q b I T. unfold ParseModel.parse. destruct (fuel_S (pre_spelling q ++ b)) as (f & -> & L).
  assert (OQ : opens opnd_first (pre_spelling q)).
  { cbn [In] in I. repeat (destruct I as [<-|I]; [eexists _, _; split; [reflexivity | right; cbn; tauto]|]); contradiction. }
  assert (H : ~ In (hd 0 b) [61; 43; 45]).
  { destruct b as [|c b]; [cbn; intuition lia|].
    assert (K := trivia_hd0 (c :: b) T ltac:(discriminate)). cbn [In] in K |- *. intuition lia. }
  assert (EH : ends_here (pre_spelling q ++ b) = Ok false).
  { cbn [In] in I. repeat (destruct I as [<-|I]; [reflexivity|]); contradiction. }
  assert (NI : q <> PreInvalid /\ q <> PreTypeof) by (split; intros ->; cbn in I; intuition discriminate).
  rewrite start by auto. rewrite p_toks_eq, p_opnd_eq. rewrite pre_some by (try tauto; intros ->; tauto). cbn [rbind].
  assert (X : (match Some q with None => @Ok ptr (pre_spelling q ++ b) | Some PreInvalid => @Thr ptr
                | Some q0 => @Ok ptr (adv (len (pre_spelling q0)) (pre_spelling q ++ b)) end) = Ok b).
  { destruct q; try tauto; rewrite adv_app; reflexivity. }
  cbn iota in X. rewrite X. cbn [rbind]. rewrite <- (app_nil_r b) at 1. rewrite blanks_solid; [|exact T | apply solid_hd; cbn; intuition lia].
  cbn [rbind]. destruct f as [|f]; [lia|]. reflexivity.
Qed.
Theorem operator_at_end : forall h t o b, w_opnd h t -> o <> OpTernaryIf -> o <> OpTernaryElse -> trivia b ->
  parse (t ++ 32 :: spelling o ++ 32 :: b) = UB.
Proof.
  intros h t o b W N1 N2 T. unfold ParseModel.parse. destruct (fuel_S (t ++ 32 :: spelling o ++ 32 :: b)) as (f & -> & L).
  destruct (opnd_read _ _ W) as [O H].
  assert (S : solid (spelling o ++ 32 :: b)).
  { destruct o; try congruence; try (apply solid_first; cbn; intuition lia);
      (split; [cbn; intuition lia | split; cbn; intros; try lia; auto; try split; auto; lia]). }
  assert (R : rest_ok ([32] ++ spelling o ++ 32 :: b)).
  { apply rest_intro; [constructor; [auto | constructor] | exact S | destruct o; reflexivity | discriminate]. }
  destruct (H _ R) as [EH HP]. change (32 :: spelling o ++ 32 :: b) with ([32] ++ spelling o ++ 32 :: b) in *.
  rewrite start by auto. rewrite p_toks_eq. rewrite HP by (rewrite app_length in L; lia). cbn [rbind].
  rewrite blanks_solid; [|constructor; [auto | constructor] | exact S]. cbn [rbind].
  rewrite operator_written; auto; try (cbn; intuition lia). 2:{ intros _. left. reflexivity. } cbn [rbind].
  assert (ends_here (spelling o ++ 32 :: b) = Ok false) as -> by (destruct o; try congruence; reflexivity). cbn [rbind].
  assert (V : blanks (adv (len (spelling o)) (spelling o ++ 32 :: b)) = Ok []).
  { rewrite adv_app. rewrite <- (app_nil_r (32 :: b)). apply blanks_solid; [constructor; auto | apply solid_hd; cbn; intuition lia]. }
  destruct o; try congruence; rewrite V; cbn [rbind]; (destruct f as [|f]; [lia|]; destruct f as [|f]; [lia|]; reflexivity).
Qed.

(** ** Counting *)
Theorem count_after_blank : forall h t b r c, w_opnd h t -> trivia b -> b <> [] -> ~ In 10 b -> c = 43 \/ c = 45 ->
  parse (t ++ b ++ c :: c :: r) = Thr.
Proof.
  intros h t b r c W T NB NL C. unfold ParseModel.parse. destruct (fuel_S (t ++ b ++ c :: c :: r)) as (f & -> & L).
  destruct (opnd_read _ _ W) as [O H].
  assert (S : solid (c :: c :: r)) by (apply solid_first; cbn; intuition lia).
  assert (R : rest_ok (b ++ c :: c :: r)).
  { apply rest_intro; [exact T | exact S | apply punct_false; cbn; intuition lia | congruence]. }
  destruct (H _ R) as [EH HP]. rewrite start by auto. rewrite p_toks_eq. rewrite HP by (rewrite app_length in L; lia). cbn [rbind].
  rewrite blanks_solid by auto. cbn [rbind].
  assert (is_operator (c :: c :: r) = Ok None /\ ends_here (c :: c :: r) = Ok false) as [-> ->] by (destruct C as [-> | ->]; split; reflexivity).
  cbn [rbind orb]. assert (newline_in (b ++ c :: c :: r) (c :: c :: r) = false) as ->; [|reflexivity].
  unfold newline_in. rewrite app_length. replace (len b + len (c :: c :: r) - len (c :: c :: r))%nat with (len b) by lia.
  rewrite firstn_app, firstn_all, Nat.sub_diag. cbn [firstn]. rewrite app_nil_r. destruct (existsb _ _) eqn:Q; [|reflexivity]. apply existsb_In in Q. contradiction.
Qed.
Theorem truth_not_counted : forall w r c, truth w -> c = 43 \/ c = 45 -> parse (w ++ c :: c :: r) = Thr.
Proof.
  intros w r c TW C. unfold ParseModel.parse. destruct (fuel_S (w ++ c :: c :: r)) as (f & -> & L).
  destruct (core_truth other kind known is_type makes w TW) as [O H].
  destruct (H (c :: c :: r)) as (PN & EH & HC); [apply after_first; cbn; intuition lia | intros [K|K]; discriminate|].
  rewrite start by (auto; apply core_opnd, O). rewrite p_toks_eq, p_opnd_eq, PN. cbn [rbind].
  rewrite blanks_here by (apply opens_solid, core_opnd, O). cbn [rbind].
  rewrite app_length in L. rewrite HC by (try discriminate; lia). cbn [rbind take_pre ty].
  rewrite blanks_here by (apply solid_first; cbn; intuition lia). cbn [rbind].
  rewrite punct_false by (cbn; intuition lia). cbn [rbind]. destruct C as [-> | ->]; reflexivity.
Qed.

(** A prefix that numerals do not take. *)
Theorem numeral_refused : forall q v fl b r u, numeral v -> kind (LText v) = Some fl -> In q (PreNot :: if fl then [] else [PreBwc]) -> trivia b ->
  ends_at r u -> parse (pre_spelling q ++ b ++ v ++ r) = Thr.
Proof.
  intros q v fl b r u NV K Q T E. destruct (ends_at_stop _ _ E) as [((AR & NC) & B & _) _].
  destruct AR as [A (u' & B' & PU)]. rewrite B in B'. inversion B'; subst u'.
  assert (D : hd 0 r <> 46).
  { intros D. destruct r as [|c r]; [discriminate|]. cbn in D. subst c. rewrite blanks_here in B by (apply solid_first; cbn; lia). inversion B; subst u. discriminate PU. }
  unfold ParseModel.parse. destruct (fuel_S (pre_spelling q ++ b ++ v ++ r)) as (f & -> & L).
  destruct (core_number other kind known is_type makes v fl (if fl then SInt else SFloat) NV K eq_refl) as [O H].
  destruct (H r A (fun _ => D)) as (PN & EH & HC).
  assert (I : In q [PreNot; PreBwc]) by (cbn in Q |- *; destruct fl; cbn in Q; intuition).
  assert (OQ : opens opnd_first (pre_spelling q)).
  { cbn [In] in I. repeat (destruct I as [<-|I]; [eexists _, _; split; [reflexivity | right; cbn; tauto]|]); contradiction. }
  assert (H1 : ~ In (hd 0 (b ++ v ++ r)) [61; 43; 45]).
  { destruct b as [|c b].
    - destruct O as (c & t & -> & CF). apply core_range in CF. cbn. intuition lia.
    - assert (X := trivia_hd (c :: b) (v ++ r) T ltac:(discriminate)). cbn [In] in X |- *. intuition lia. }
  assert (EQ : ends_here (pre_spelling q ++ b ++ v ++ r) = Ok false).
  { cbn [In] in I. repeat (destruct I as [<-|I]; [reflexivity|]); contradiction. }
  assert (NI : q <> PreInvalid /\ q <> PreTypeof) by (split; intros ->; cbn in I; intuition discriminate).
  rewrite start by auto. rewrite p_toks_eq, p_opnd_eq. rewrite pre_some by (try tauto; intros ->; tauto). cbn [rbind].
  assert (X : (match Some q with None => @Ok ptr (pre_spelling q ++ b ++ v ++ r) | Some PreInvalid => @Thr ptr
                | Some q0 => @Ok ptr (adv (len (pre_spelling q0)) (pre_spelling q ++ b ++ v ++ r)) end) = Ok (b ++ v ++ r)).
  { destruct q; try tauto; rewrite adv_app; reflexivity. }
  cbn iota in X. rewrite X. cbn [rbind]. rewrite (blanks_solid b (v ++ r) T (opens_solid v r (core_opnd v O))). cbn [rbind].
  assert (LL : (len v <= len (pre_spelling q ++ b ++ v ++ r))%nat) by (rewrite !app_length; lia).
  rewrite HC; [|destruct fl; discriminate | lia]. cbn [rbind].
  destruct fl; cbn [ty]; cbn [In] in Q; destruct Q as [<-|Q]; try contradiction; [| |destruct Q as [<-|[]]; reflexivity]; cbn [take_pre rbind].
  all: rewrite B; cbn [rbind]; rewrite PU; cbn [rbind]; destruct (no_post r NC) as (p & -> & Q1 & Q2); cbn [rbind]; destruct p as [[]|]; try congruence; reflexivity.
Qed.

(** ** typeof *)
Theorem typeof_refused : forall v b r u, string_body v -> is_type v = true -> trivia b -> line_blank (hd 0 b) -> ends_at r u ->
  parse (bytes "typeof" ++ b ++ 34 :: v ++ 34 :: r) = Thr.
Proof.
  intros v b r u SV TV T LB E. unfold ParseModel.parse. destruct (fuel_S (bytes "typeof" ++ b ++ 34 :: v ++ 34 :: r)) as (f & -> & L).
  assert (EQ : bytes "typeof" ++ b ++ 34 :: v ++ 34 :: r = (bytes "typeof" ++ b) ++ (34 :: v ++ [34]) ++ r) by (repeat (rewrite <- app_assoc; cbn [app]); reflexivity).
  destruct (core_string other kind known is_type makes v SV) as [O H]. destruct (ends_at_stop _ _ E) as [((AR & NC) & B & _) _].
  destruct AR as [A (u' & B' & PU)]. rewrite B in B'. inversion B'; subst u'.
  destruct (H r A) as (PN & EH & HC); [intros [K|K]; discriminate|].
  destruct (prefix_read (Some PreTypeof) (bytes "typeof" ++ b) ((34 :: v ++ [34]) ++ r)) as (PR & PE & s1 & S1 & SB); auto.
  { split; [discriminate|]. exists b. auto. }
  { eexists _, _. split; [reflexivity|]. destruct O as (c & t & Q & K). inversion Q; subst. exact K. }
  rewrite EQ in *. rewrite <- app_assoc in *.
  rewrite (start _ (bytes "typeof")); [|eexists _, _; split; [reflexivity | left; left; reflexivity] | exact PE].
  rewrite p_toks_eq, p_opnd_eq, PR. cbn [rbind]. 
  assert (OI : forall (x y : ptr), @Ok ptr x = Ok y -> x = y) by congruence. apply OI in S1. rewrite S1, SB. cbn [rbind].
  assert (LL : (len (34%Z :: v ++ [34%Z]) <= len (bytes "typeof" ++ b ++ (34%Z :: v ++ [34%Z]) ++ r))%nat) by (rewrite !(app_length _ (_ ++ _)), (app_length (34 :: v ++ [34])); lia).
  rewrite HC; [|discriminate | lia]. cbn [rbind take_pre ty].
  rewrite B. cbn [rbind]. rewrite PU. cbn [rbind]. destruct (no_post r NC) as (q & -> & Q1 & Q2). cbn [rbind].
  destruct q as [[]|]; try congruence; cbn [rbind fst snd pre_ok token_value]; rewrite TV; reflexivity.
Qed.
End Refute.
