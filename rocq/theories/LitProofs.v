(** Reading literals, new and conditions is exact. *)
From Coq Require Import List ZArith Bool Lia String.
From Verif Require Import Base StringModel LexModel LexSpec LexProofs LexOps LexTok LexNum LexProps ParseModel ParseSpec ParseLex ParseProofs ParseMain ParseSound ParseTotal
  LitModel LitSpec.
Import ListNotations.
Local Open Scope Z_scope.
Local Arguments ends_here : simpl never.
Local Arguments blanks : simpl never.
Local Arguments is_operator : simpl never.
Local Arguments is_keyword : simpl never.
Local Arguments string_literal : simpl never.
Local Arguments get_name_identifier_token : simpl never.
Local Arguments fuel_for : simpl never.
Local Arguments adv : simpl never.

Section Read.
Variable other : okind -> ptr -> res (Z * ptr).
Variable kind : literal -> option bool.
Variable known is_type : list Z -> bool.
Variable makes : pexpr -> bool.
Notation parse := (parse other kind known is_type makes).
Notation written := (written other kind known is_type makes).
Notation items := (items other kind known is_type makes).
Notation pairs := (pairs other kind known is_type makes).
Notation read_array := (read_array other kind known is_type makes).
Notation read_object := (read_object other kind known is_type makes).
Notation parse_until := (parse_until other kind known is_type makes).
Notation new_args := (new_args other kind known is_type makes).

Lemma written_opens : forall e t, written e t -> opens opnd_first t.
Proof. intros e t W. exact (proj1 (proj1 (written_read other kind known is_type makes) e t W)). Qed.
Lemma closing_end : forall b u, trivia b -> closing u -> ends_at (b ++ u) u.
Proof. intros b u B C. exists b. auto. Qed.
Lemma parse_closing : forall e t b u, written e t -> trivia b -> closing u -> parse (t ++ b ++ u) = Ok (PSome e, u).
Proof. intros e t b u W B C. exact (parse_written other kind known is_type makes e t [] (b ++ u) u W tr_nil (closing_end b u B C)). Qed.
Lemma adv1 : forall c s, adv 1 (c :: s) = s. Proof. reflexivity. Qed.
Lemma blanks_char : forall b c u, trivia b -> ~ In c [32; 9; 10; 13; 47; 42] -> blanks (b ++ c :: u) = Ok (c :: u).
Proof. intros b c u B C. apply blanks_solid; [exact B | apply solid_first, C]. Qed.
Lemma blanks_self : forall c u, ~ In c [32; 9; 10; 13; 47; 42] -> blanks (c :: u) = Ok (c :: u).
Proof. intros c u C. apply (blanks_char [] c u tr_nil C). Qed.

(** ** Arrays *)
Lemma items_S : forall f first s, items (S f) first s =
  if (hd0 s =? 0) || (hd0 s =? 93) then Ok ([], s)
  else
    do b <- blanks s;
    do c <- (if first then if hd0 b =? 44 then Thr else Ok b
             else if hd0 b =? 44 then blanks (adv 1 b) else Thr);
    do r <- parse c;
    do t <- items f false (snd r);
    Ok (EExpr (fst r) :: EItem :: fst t, snd t).
Proof. reflexivity. Qed.
Lemma more_first : forall es m r, more_items written es m -> closing (m ++ 93 :: r).
Proof. intros es m r H. destruct H; cbn; unfold closing; cbn; tauto. Qed.
Lemma items_more : forall es m, more_items written es m -> forall f r, (List.length m < f)%nat ->
  items f false (m ++ 93 :: r) = Ok (flat_map (fun e => [EExpr (PSome e); EItem]) es, 93 :: r).
Proof.
  induction 1 as [|e es b1 t b2 m B1 W B2 M IH]; intros f r L; (destruct f as [|f]; [cbn in L; lia|]); rewrite items_S.
  - reflexivity.
  - cbn [app hd0 hd]. change ((44 =? 0) || (44 =? 93)) with false. cbv iota. rewrite blanks_self by (cbn; lia). cbn [rbind hd0 hd]. change (44 =? 44) with true. cbv iota. rewrite adv1.
    rewrite <- !app_assoc. rewrite (blanks_solid b1 _ B1 (opens_solid t _ (written_opens e t W))). cbn [rbind].
    rewrite (parse_closing e t b2 (m ++ 93 :: r) W B2 (more_first es m r M)). cbn [rbind fst snd]. rewrite IH; [reflexivity|].
    cbn [List.length] in L. rewrite !app_length in L. lia.
Qed.
Lemma array_read : forall es t r, array_text written es t -> read_array (t ++ r) = Ok (array_code es, r).
Proof.
  intros es t r H. unfold LitModel.read_array. destruct H as [b B | e es b1 t b2 m B1 W B2 M]; cbn [app].
  - rewrite blanks_self by (cbn; lia). cbn [rbind hd0 hd]. change (negb (91 =? 91)) with false. cbv iota. rewrite adv1, <- app_assoc. cbn [app].
    rewrite blanks_char by (auto; cbn; lia). reflexivity.
  - rewrite blanks_self by (cbn; lia). cbn [rbind hd0 hd]. change (negb (91 =? 91)) with false. cbv iota. rewrite adv1, <- !app_assoc.
    pose proof (written_opens e t W) as O. rewrite (blanks_solid b1 _ B1 (opens_solid t _ O)). cbn [rbind].
    rewrite items_S. destruct O as (c & t' & Et & Oc). apply opnd_range in Oc.
    assert (Hc : hd0 (t ++ b2 ++ m ++ [93] ++ r) = c) by (rewrite Et; reflexivity). rewrite Hc.
    assert ((c =? 0) || (c =? 93) = false) as -> by lia. cbv iota.
    rewrite <- (app_nil_l (t ++ _)), (blanks_solid [] _ tr_nil (opens_solid t _ (written_opens e t W))). cbn [rbind app]. cbn [app] in Hc. rewrite Hc.
    assert (c =? 44 = false) as -> by lia. cbn [rbind].
    rewrite (parse_closing e t b2 (m ++ 93 :: r) W B2 (more_first es m r M)). cbn [rbind fst snd].
    rewrite (items_more es m M) by (rewrite !app_length; cbn [List.length]; lia). cbn [rbind fst snd hd0 hd]. change (93 =? 93) with true. reflexivity.
Qed.

(** A comma behind the last element is refused. *)
Lemma items_comma : forall es m b, more_items written es m -> trivia b -> forall f r, (List.length m + 1 < f)%nat ->
  items f false (m ++ 44 :: b ++ 93 :: r) = Thr.
Proof.
  induction 1 as [|e es b1 t b2 m B1 W B2 M IH]; intros B f r L; (destruct f as [|f]; [lia|]); rewrite items_S; cbn [app hd0 hd];
    change ((44 =? 0) || (44 =? 93)) with false; cbv iota; rewrite blanks_self by (cbn; lia); cbn [rbind hd0 hd]; change (44 =? 44) with true; cbv iota; rewrite adv1.
  - rewrite blanks_char by (auto; cbn; lia). cbn [rbind]. unfold ParseModel.parse, fuel_for. rewrite Nat.mul_succ_r. rewrite Nat.add_comm. cbn [Nat.add].
    rewrite p_sub_eq, blanks_self by (cbn; lia). reflexivity.
  - rewrite <- !app_assoc. rewrite (blanks_solid b1 _ B1 (opens_solid t _ (written_opens e t W))). cbn [rbind].
    rewrite (parse_closing e t b2 (m ++ 44 :: b ++ 93 :: r) W B2) by (destruct M; unfold closing; cbn; tauto). cbn [rbind fst snd]. rewrite IH; [reflexivity|exact B|].
    cbn [List.length] in L. rewrite !app_length in L. lia.
Qed.
Lemma array_comma : forall e es b1 t b2 m b r, trivia b1 -> written e t -> trivia b2 -> more_items written es m -> trivia b ->
  read_array (91 :: b1 ++ t ++ b2 ++ m ++ 44 :: b ++ 93 :: r) = Thr.
Proof.
  intros e es b1 t b2 m b r B1 W B2 M B. unfold LitModel.read_array. rewrite blanks_self by (cbn; lia). cbn [rbind hd0 hd]. change (negb (91 =? 91)) with false. cbv iota. rewrite adv1.
  pose proof (written_opens e t W) as O. rewrite (blanks_solid b1 _ B1 (opens_solid t _ O)). cbn [rbind].
  rewrite items_S. destruct O as (c & t' & Et & Oc). apply opnd_range in Oc.
  assert (Hc : hd0 (t ++ b2 ++ m ++ 44 :: b ++ 93 :: r) = c) by (rewrite Et; reflexivity). rewrite Hc.
  assert ((c =? 0) || (c =? 93) = false) as -> by lia. cbv iota.
  rewrite <- (app_nil_l (t ++ _)), (blanks_solid [] _ tr_nil (opens_solid t _ (written_opens e t W))). cbn [rbind app]. cbn [app] in Hc. rewrite Hc.
  assert (c =? 44 = false) as -> by lia. cbn [rbind].
  rewrite (parse_closing e t b2 _ W B2) by (destruct M; unfold closing; cbn; tauto). cbn [rbind fst snd].
  rewrite (items_comma es m b M B) by (rewrite ?app_length; cbn [List.length]; rewrite !app_length; cbn [List.length]; lia). reflexivity.
Qed.

(** ** Objects *)
Lemma pairs_S : forall f first s, pairs (S f) first s =
  if (hd0 s =? 125) || (hd0 s =? 0) then Ok ([], s)
  else
    do b <- blanks s;
    do c <- (if first then Ok b else if hd0 b =? 44 then blanks (adv 1 b) else Thr);
    do w <- is_keyword c;
    match w with
    | Some _ => Thr
    | None =>
        do k <- key c;
        do d <- blanks (snd k);
        if negb (hd0 d =? 58) then Thr
        else
          do v <- blanks (adv 1 d);
          if hd0 v =? 125 then Thr
          else
            do r <- parse v;
            do t <- pairs f false (snd r);
            Ok (EKey (fst k) :: EExpr (fst r) :: EPair :: fst t, snd t)
    end.
Proof. reflexivity. Qed.
(** Where a key starts. *)
Lemma key_first : forall k kt x, key_text k kt -> exists c, hd0 (kt ++ x) = c /\ (is_alpha_ c = true \/ c = 34) /\ solid (kt ++ x).
Proof.
  intros k kt x [((c & w & -> & A & _) & _ & ->)|(_ & _ & ->)]; cbn [app].
  - exists c. split; [reflexivity|]. split; [auto|]. apply solid_first. apply alpha_range in A. cbn. intuition lia.
  - exists 34. split; [reflexivity|]. split; [auto|]. apply solid_first. cbn. lia.
Qed.
Lemma quote_no_keyword : forall kw x, ~ keyword_at kw (34 :: x).
Proof. intros kw x (y & E & _). destruct kw; discriminate. Qed.
Lemma key_read : forall k kt x, key_text k kt -> is_alnum_ (hd 0 x) = false -> is_keyword (kt ++ x) = Ok None /\ key (kt ++ x) = Ok (k, x).
Proof.
  intros k kt x [(W & K & ->)|(B & N & ->)] A.
  - split; [apply word_no_keyword; auto|]. unfold key. destruct W as (c & w & -> & Hc & Hw). pose proof Hc as Hr. apply alpha_range in Hr.
    cbn [app hd0 hd]. assert (c =? 34 = false) as -> by lia. apply C87_declared_name. split; [reflexivity|]. split; [constructor; [apply alpha_alnum, Hc | exact Hw]|]. split; [eauto | exact A].
  - split.
    + destruct (is_keyword_spec ((34 :: k ++ [34]) ++ x)) as (r & -> & S). destruct r as [kw|]; [|reflexivity]. exfalso. apply (quote_no_keyword kw _ (proj1 (S kw) eq_refl)).
    + unfold key. cbn [app hd0 hd]. change (34 =? 34) with true. cbv iota. rewrite <- app_assoc. cbn [app].
      rewrite (proj2 (string_literal_spec (34 :: k ++ 34 :: x) k x) (conj eq_refl B)). cbn [fst]. destruct k; [congruence | reflexivity].
Qed.
Lemma trivia_not_alnum : forall b c u, trivia b -> is_alnum_ c = false -> is_alnum_ (hd 0 (b ++ c :: u)) = false.
Proof.
  intros b c u B C. destruct b as [|d b]; [exact C|]. pose proof (trivia_hd0 _ B ltac:(discriminate)) as H. cbn in H |- *.
  destruct H as [<-|[<-|[<-|[<-|[<-|[]]]]]]; reflexivity.
Qed.
(** One pair and what follows it. *)
Lemma pair_read : forall k e t f u, pair_text key_text written (k, e) t -> closing u ->
  is_keyword (t ++ u) = Ok None /\ solid (t ++ u) /\ (is_alpha_ (hd0 (t ++ u)) = true \/ hd0 (t ++ u) = 34) /\
  (do k <- key (t ++ u);
   do d <- blanks (snd k);
   if negb (hd0 d =? 58) then Thr
   else
     do v <- blanks (adv 1 d);
     if hd0 v =? 125 then Thr
     else
       do r <- parse v;
       do t <- pairs f false (snd r);
       Ok (EKey (fst k) :: EExpr (fst r) :: EPair :: fst t, snd t)) =
  (do t <- pairs f false u; Ok (EKey k :: EExpr (PSome e) :: EPair :: fst t, snd t)).
Proof.
  intros k e t f u H C. inversion H as [k' kt b1 b2 e' t' b3 K B1 B2 W B3 E1 E2]; subst k' e' t. clear H. rewrite <- !app_assoc. cbn [app]. rewrite <- !app_assoc.
  destruct (key_read k kt (b1 ++ 58 :: b2 ++ t' ++ b3 ++ u) K (trivia_not_alnum b1 58 _ B1 eq_refl)) as (K1 & K2).
  destruct (key_first k kt (b1 ++ 58 :: b2 ++ t' ++ b3 ++ u) K) as (c & Hc & Ac & Sc).
  split; [exact K1|]. split; [exact Sc|]. split; [rewrite Hc; exact Ac|]. rewrite K2. cbn [rbind fst snd].
  rewrite (blanks_char b1 58) by (auto; cbn; lia). cbn [rbind hd0 hd]. change (negb (58 =? 58)) with false. cbv iota. rewrite adv1.
  pose proof (written_opens e t' W) as O. rewrite (blanks_solid b2 _ B2 (opens_solid t' _ O)). cbn [rbind].
  destruct O as (d & t'' & Et & Od). apply opnd_range in Od. assert (Hd : hd0 (t' ++ b3 ++ u) = d) by (rewrite Et; reflexivity). rewrite Hd.
  assert (d =? 125 = false) as -> by lia. rewrite (parse_closing e t' b3 u W B3 C). reflexivity.
Qed.
Lemma pairs_first : forall ps m r, more_pairs key_text written ps m -> closing (m ++ 125 :: r).
Proof. intros ps m r H. destruct H; cbn; unfold closing; cbn; tauto. Qed.
Lemma pairs_more : forall ps m, more_pairs key_text written ps m -> forall f r, (List.length m < f)%nat ->
  pairs f false (m ++ 125 :: r) = Ok (flat_map (fun p => [EKey (fst p); EExpr (PSome (snd p)); EPair]) ps, 125 :: r).
Proof.
  induction 1 as [|[k e] ps b t m B P M IH]; intros f r L; (destruct f as [|f]; [cbn in L; lia|]); rewrite pairs_S.
  - reflexivity.
  - cbn [app hd0 hd]. change ((44 =? 125) || (44 =? 0)) with false. cbv iota. rewrite blanks_self by (cbn; lia). cbn [rbind hd0 hd]. change (44 =? 44) with true. cbv iota. rewrite adv1.
    rewrite <- !app_assoc. destruct (pair_read k e t f (m ++ 125 :: r) P (pairs_first ps m r M)) as (Kw & So & _ & E).
    rewrite (blanks_solid b _ B So). cbn [rbind]. rewrite Kw. cbn [rbind]. rewrite E, IH; [reflexivity|].
    cbn [List.length] in L. rewrite !app_length in L. lia.
Qed.
Lemma object_read : forall ps t r, object_text key_text written ps t -> read_object (t ++ r) = Ok (object_code ps, r).
Proof.
  intros ps t r H. unfold LitModel.read_object. destruct H as [b B | [k e] ps b t m B P M]; cbn [app hd0 hd].
  - change (negb (123 =? 123)) with false. cbv iota. rewrite adv1, <- app_assoc. cbn [app]. rewrite blanks_char by (auto; cbn; lia). reflexivity.
  - change (negb (123 =? 123)) with false. cbv iota. rewrite adv1, <- !app_assoc. cbn [app].
    destruct (pair_read k e t (List.length (t ++ m ++ 125 :: r)) (m ++ 125 :: r) P (pairs_first ps m r M)) as (Kw & So & Al & E).
    rewrite (blanks_solid b _ B So). cbn [rbind]. rewrite pairs_S.
    assert ((hd0 (t ++ m ++ 125 :: r) =? 125) || (hd0 (t ++ m ++ 125 :: r) =? 0) = false) as ->.
    { destruct Al as [Al|Al]; [apply alpha_range in Al; lia | rewrite Al; reflexivity]. }
    rewrite <- (app_nil_l (t ++ m ++ 125 :: r)) at 1. rewrite (blanks_solid [] _ tr_nil So). cbn [rbind]. rewrite Kw. cbn [rbind].
    rewrite E, (pairs_more ps m M) by (rewrite !app_length; cbn [List.length]; rewrite ?app_length; cbn; lia). reflexivity.
Qed.

(** An unclosed key. *)
Lemma loop_open : forall b pre x, ~ In 10 b -> (forall p q, b = p ++ 34 :: q -> exists p', pre :: p = p' ++ [92]) -> x = [] \/ hd 0 x = 10 -> string_loop pre (b ++ x) = Thr.
Proof.
  induction b as [|c b IH]; intros pre x NL Q X; cbn.
  - destruct x as [|c x]; [reflexivity|]. destruct X as [X|X]; [discriminate|]. cbn in X. subst c. reflexivity.
  - destruct (Z.eqb_spec c 10) as [->|N10]; [exfalso; apply NL; left; reflexivity|].
    assert (R : string_loop c (b ++ x) = Thr).
    { apply IH; auto; [intros K; apply NL; right; exact K|].
      intros p q ->. destruct (Q (c :: p) q eq_refl) as [[|y p'] E]; [discriminate|]. inversion E. exists p'. congruence. }
    destruct (Z.eqb_spec c 34) as [->|N34]; cbn [andb]; [|rewrite R; reflexivity].
    destruct (Q [] b eq_refl) as [p' E]. destruct p' as [|y [|? ?]]; inversion E. subst. rewrite R. reflexivity.
Qed.
Lemma open_key : forall b c v x, trivia b -> c <> 0 -> c <> 34 -> ~ In 10 (c :: v) -> (forall p q, c :: v = p ++ 34 :: q -> exists p', p = p' ++ [92]) ->
  x = [] \/ hd 0 x = 10 -> read_object (123 :: b ++ 34 :: c :: v ++ x) = UB.
Proof.
  intros b c v x B C0 C34 NL Q X. unfold LitModel.read_object. cbn [hd0 hd]. change (negb (123 =? 123)) with false. cbv iota. rewrite adv1.
  rewrite blanks_char by (auto; cbn; lia). cbn [rbind]. rewrite pairs_S. cbn [hd0 hd]. change ((34 =? 125) || (34 =? 0)) with false. cbv iota.
  rewrite blanks_self by (cbn; lia). cbn [rbind].
  destruct (is_keyword_spec (34 :: c :: v ++ x)) as (r & -> & S). destruct r as [kw|]; [exfalso; apply (quote_no_keyword kw _ (proj1 (S kw) eq_refl))|].
  cbn [rbind]. unfold key. cbn [hd0 hd]. change (34 =? 34) with true. cbv iota.
  assert (SL : string_literal (34 :: c :: v ++ x) = Thr).
  { unfold string_literal. rewrite peek0. cbn [rbind hd0 hd]. change (34 =? 34) with true. cbv iota. rewrite adv1.
    apply (loop_open (c :: v) 34 x NL); [|exact X]. intros p q E. destruct (Q p q E) as [p' ->]. exists (34 :: p'). reflexivity. }
  rewrite SL, adv1. cbn [hd0 hd]. assert (c <> 10) by (intros ->; apply NL; left; reflexivity).
  assert ((c =? 0) || (c =? 10) = false) as -> by lia. reflexivity.
Qed.
Lemma empty_key : forall b x, trivia b -> read_object (123 :: b ++ 34 :: 34 :: x) = Thr.
Proof.
  intros b x B. unfold LitModel.read_object. cbn [hd0 hd]. change (negb (123 =? 123)) with false. cbv iota. rewrite adv1.
  rewrite blanks_char by (auto; cbn; lia). cbn [rbind]. rewrite pairs_S. cbn [hd0 hd]. change ((34 =? 125) || (34 =? 0)) with false. cbv iota.
  rewrite blanks_self by (cbn; lia). cbn [rbind].
  destruct (is_keyword_spec (34 :: 34 :: x)) as (r & -> & S). destruct r as [kw|]; [exfalso; apply (quote_no_keyword kw _ (proj1 (S kw) eq_refl))|].
  reflexivity.
Qed.

(** ** Conditions and arguments of new *)
Lemma parse_S : forall s, parse s =
  do u <- blanks s;
  if existsb (Z.eqb (hd0 s)) [41; 44; 93; 0; 125] then Thr
  else
    do e <- ends_here u;
    if (e : bool) then Ok (PNone, u)
    else
      do r <- p_toks other kind known is_type makes (Nat.pred (fuel_for s)) u;
      let '(h, tl, v) := r in
      if negb (assign_ok h tl) then Thr
      else if hd0 v =? 63 then
        do r1 <- p_sub other kind known is_type makes (Nat.pred (fuel_for s)) (adv 1 v);
        match fst r1 with
        | PNone => Thr
        | PSome e1 =>
            if negb (hd0 (snd r1) =? 58) then Thr
            else do r2 <- p_sub other kind known is_type makes (Nat.pred (fuel_for s)) (adv 1 (snd r1)); Ok (PSome (PExpr h tl (PTern e1 (fst r2))), snd r2)
        end
      else Ok (PSome (PExpr h tl PNoTern), v).
Proof.
  intros s. unfold ParseModel.parse. assert (E : fuel_for s = S (Nat.pred (fuel_for s))) by (unfold fuel_for; cbn [Nat.mul]; lia).
  rewrite E at 1. apply p_sub_eq.
Qed.
Lemma until_iff : forall ends s x u, ~ In 63 ends ->
  (parse_until ends s = Ok (x, u) <-> parse s = Ok (x, u) /\ In (hd 0 u) ends /\ match x with PSome e => plain_expr e | PNone => True end).
Proof.
  intros ends s x u N63. rewrite parse_S. unfold LitModel.parse_until. destruct (blanks s) as [b| | |]; cbn [rbind]; [|split; [discriminate | intros [H _]; discriminate]..].
  destruct (existsb (Z.eqb (hd0 s)) _); [split; [discriminate | intros [H _]; discriminate]|].
  destruct (ends_here b) as [e| | |]; cbn [rbind]; [|split; [discriminate | intros [H _]; discriminate]..]. destruct e.
  - destruct (existsb (Z.eqb (hd0 b)) ends) eqn:Ex.
    + apply existsb_In in Ex. split; [intros H; inversion H; subst; auto | intros (H & _); exact H].
    + split; [discriminate|]. intros (H & I & _). inversion H; subst. apply existsb_In in I. change (hd 0 u) with (hd0 u) in I. congruence.
  - destruct (p_toks _ _ _ _ _ _ _) as [[[h tl] v]| | |]; cbn [rbind]; [|split; [discriminate | intros [H _]; discriminate]..].
    destruct (existsb (Z.eqb (hd0 v)) ends) eqn:Ex; cbn [negb].
    + apply existsb_In in Ex. destruct (assign_ok h tl); cbn [negb]; [|split; [discriminate | intros [H _]; discriminate]].
      destruct (Z.eqb_spec (hd0 v) 63) as [E|E]; [rewrite E in Ex; contradiction|].
      split; [intros H; inversion H; subst; cbn; auto | intros (H & _); exact H].
    + split; [discriminate|]. intros (H & I & P). exfalso. destruct (assign_ok h tl); cbn [negb] in H; [|discriminate].
      destruct (hd0 v =? 63).
      * apply bind_ok in H. destruct H as (r1 & _ & H). destruct (fst r1); [discriminate|]. destruct (negb _) in H; [discriminate|].
        apply bind_ok in H. destruct H as (r2 & _ & H). inversion H; subst. exact P.
      * inversion H; subst. apply existsb_In in I. change (hd 0 u) with (hd0 u) in I. congruence.
Qed.
Lemma until_tern : forall ends s h tl e1 e2 u, ~ In 63 ends -> parse s = Ok (PSome (PExpr h tl (PTern e1 e2)), u) -> parse_until ends s = Thr.
Proof.
  intros ends s h tl e1 e2 u N63. rewrite parse_S. unfold LitModel.parse_until. destruct (blanks s) as [b| | |]; cbn [rbind]; try discriminate.
  destruct (existsb (Z.eqb (hd0 s)) _); [discriminate|]. destruct (ends_here b) as [e| | |]; cbn [rbind]; try discriminate. destruct e; [discriminate|].
  destruct (p_toks _ _ _ _ _ _ _) as [[[h' tl'] v]| | |]; cbn [rbind]; try discriminate. destruct (assign_ok h' tl'); cbn [negb]; [|discriminate].
  destruct (Z.eqb_spec (hd0 v) 63) as [E|E]; [|discriminate]. intros _. destruct (existsb _ ends) eqn:Ex; [|reflexivity].
  apply existsb_In in Ex. rewrite E in Ex. contradiction.
Qed.
Lemma until_written : forall ends e t b u, ~ In 63 ends -> written e t -> plain_expr e -> trivia b -> In (hd 0 u) ends -> closing u -> parse_until ends (t ++ b ++ u) = Ok (PSome e, u).
Proof. intros ends e t b u N W P B I C. apply until_iff; auto. split; [apply parse_closing; auto | auto]. Qed.

Lemma new_args_S : forall f s, new_args (S f) s =
  if hd0 s =? 41 then Ok ([], s)
  else
    do r <- parse_until [44; 41] s;
    do v <- (if hd0 (snd r) =? 44 then blanks (adv 1 (snd r)) else Ok (snd r));
    do t <- new_args f v;
    Ok (fst r :: fst t, snd t).
Proof. reflexivity. Qed.
Lemma arg_first : forall es t r, arg_text written es t -> solid (t ++ 41 :: r) /\ (t = [] \/ opens opnd_first t).
Proof.
  intros es t r H. destruct H as [|e t b W P B|e es t b1 b2 m W P B1 B2 H].
  - split; [apply solid_first; cbn; lia | auto].
  - rewrite <- app_assoc. pose proof (written_opens e t W) as O. split; [apply opens_solid, O|]. right. destruct O as (c & t' & -> & O). exists c, (t' ++ b). auto.
  - rewrite <- app_assoc. pose proof (written_opens e t W) as O. split; [apply opens_solid, O|]. right. destruct O as (c & t' & -> & O). eexists c, _. split; [reflexivity | exact O].
Qed.
Lemma new_args_read : forall es t, arg_text written es t -> forall f r, (List.length t < f)%nat -> new_args f (t ++ 41 :: r) = Ok (map PSome es, 41 :: r).
Proof.
  induction 1 as [|e t b W P B|e es t b1 b2 m W P B1 B2 H IH]; intros f r L; (destruct f as [|f]; [cbn in L; lia|]); rewrite new_args_S.
  - reflexivity.
  - rewrite <- app_assoc. rewrite (opens_hd t _ (written_opens e t W)).
    rewrite (until_written [44; 41] e t b (41 :: r)) by (auto; unfold closing; cbn; intuition discriminate). cbn [rbind fst snd hd0 hd]. change (41 =? 44) with false. cbv iota. cbn [rbind].
    destruct f as [|f]; [exfalso; pose proof (opens_len _ _ (written_opens e t W)); rewrite app_length in L; lia|]. reflexivity.
  - rewrite <- app_assoc. rewrite (opens_hd t _ (written_opens e t W)). rewrite <- app_assoc. cbn [app].
    rewrite (until_written [44; 41] e t b1 (44 :: (b2 ++ m) ++ 41 :: r)) by (auto; unfold closing; cbn; intuition discriminate). cbn [rbind fst snd hd0 hd]. change (44 =? 44) with true. cbv iota.
    rewrite adv1, <- app_assoc, (blanks_solid b2 _ B2 (proj1 (arg_first es m r H))). cbn [rbind]. rewrite IH; [reflexivity|].
    rewrite !app_length in L. cbn [List.length] in L. rewrite app_length in L. lia.
Qed.

Lemma names_read : forall l t, dotted l t -> forall f b r, (List.length t < f)%nat -> trivia b -> exists e, new_names f (t ++ b ++ 40 :: r) = Ok (l, e, 40 :: r).
Proof.
  assert (G : forall w x, word w -> is_alnum_ (hd 0 x) = false -> get_name_identifier_token (w ++ x) = Ok (w, x)).
  { intros w x (c & w' & -> & A & Al) N. apply C87_declared_name. split; [reflexivity|]. split; [constructor; [apply alpha_alnum, A | exact Al]|]. split; [eauto | exact N]. }
  induction 1 as [w W|w b1 b2 l t W B1 B2 D IH]; intros f b r L B; (destruct f as [|f]; [lia|]); cbn [new_names].
  - rewrite (G w (b ++ 40 :: r) W (trivia_not_alnum b 40 r B eq_refl)). cbn [rbind fst snd]. rewrite blanks_char by (auto; cbn; lia). cbn [rbind hd0 hd].
    change (40 =? 46) with false. change (40 =? 40) with true. cbv iota. eauto.
  - rewrite <- !app_assoc. cbn [app]. rewrite <- !app_assoc. rewrite (G w _ W (trivia_not_alnum b1 46 _ B1 eq_refl)). cbn [rbind fst snd]. rewrite blanks_char by (auto; cbn; lia). cbn [rbind hd0 hd].
    change (46 =? 46) with true. cbv iota. rewrite adv1.
    assert (So : solid (t ++ b ++ 40 :: r)).
    { destruct D as [v (c & v' & -> & A & _)|v x1 x2 l' t' (c & v' & -> & A & _) _ _ _]; cbn [app]; apply solid_first; apply alpha_range in A; cbn; intuition lia. }
    rewrite (blanks_solid b2 _ B2 So). cbn [rbind]. destruct (IH f b r) as (e & ->); [|exact B|cbn [rbind]; eauto].
    rewrite !app_length in L. cbn [List.length] in L. rewrite app_length in L. lia.
Qed.

(** A keyword touched by a comment is a key. *)
Lemma keyword_key : forall kw x y b e t b2 b3 r, kw <> KwVarArgs -> ~ In 10 x -> trivia b -> written e t -> trivia b2 -> trivia b3 ->
  y = 123 :: kw_spelling kw ++ bytes "//" ++ x ++ 10 :: b ++ 58 :: b2 ++ t ++ b3 ++ 125 :: r -> read_object y = Ok (object_code [(kw_spelling kw, e)], r).
Proof.
  intros kw x y b e t b2 b3 r V X B W B2 B3 ->. set (rest := bytes "//" ++ x ++ 10 :: b ++ 58 :: b2 ++ t ++ b3 ++ 125 :: r).
  assert (WK : word (kw_spelling kw)). { pose proof (kw_alnum kw V) as KA. destruct kw; try congruence; cbn in KA |- *; inversion KA; subst; eexists _, _; (split; [reflexivity|]); split; auto. }
  destruct WK as (c & w & EK & Ac & Aw).
  assert (So : solid (kw_spelling kw ++ rest)) by (rewrite EK; cbn [app]; apply solid_first; apply alpha_range in Ac; cbn; intuition lia).
  unfold LitModel.read_object. cbn [hd0 hd]. change (negb (123 =? 123)) with false. cbv iota. rewrite adv1.
  rewrite <- (app_nil_l (kw_spelling kw ++ rest)), (blanks_solid [] _ tr_nil So). cbn [rbind]. cbn [app]. rewrite pairs_S.
  assert (Hc : hd0 (kw_spelling kw ++ rest) = c) by (rewrite EK; reflexivity). rewrite Hc. assert ((c =? 125) || (c =? 0) = false) as -> by (apply alpha_range in Ac; lia).
  rewrite <- (app_nil_l (kw_spelling kw ++ rest)) at 1. rewrite (blanks_solid [] _ tr_nil So). cbn [rbind]. cbn [app].
  assert (NK : is_keyword (kw_spelling kw ++ rest) = Ok None).
  { destruct (is_keyword_spec (kw_spelling kw ++ rest)) as (o & -> & S). destruct o as [k|]; [|reflexivity]. exfalso. destruct (proj1 (S k) eq_refl) as (q & E & Sp).
    assert (Vk : k <> KwVarArgs) by (intros Z0; rewrite Z0, EK in E; apply (f_equal (hd 0)) in E; cbn in E; rewrite E in Ac; discriminate Ac).
    destruct (word_prefix (kw_spelling k) (kw_spelling kw) rest q (kw_alnum k Vk) (kw_alnum kw V) eq_refl E) as [[K Eq]|K].
    - subst q. destruct Sp as [Sp|[q' Sp]]; [cbn in Sp; intuition lia | discriminate].
    - apply alnum_range in K. destruct Sp as [Sp|[q' ->]]; [cbn in Sp; intuition lia | cbn in K; lia]. }
  rewrite NK. cbn [rbind]. assert (KR : key (kw_spelling kw ++ rest) = Ok (kw_spelling kw, rest)).
  { unfold key. rewrite Hc. apply alpha_range in Ac as Rc. assert (c =? 34 = false) as -> by lia. apply C87_declared_name. split; [reflexivity|]. split; [apply kw_alnum, V|]. split; [eauto | reflexivity]. }
  rewrite KR. cbn [rbind fst snd]. unfold rest.
  assert (TR : trivia (bytes "//" ++ x ++ 10 :: b)) by (apply tr_line; auto).
  replace (bytes "//" ++ x ++ 10 :: b ++ 58 :: b2 ++ t ++ b3 ++ 125 :: r) with ((bytes "//" ++ x ++ 10 :: b) ++ 58 :: b2 ++ t ++ b3 ++ 125 :: r) by (rewrite <- !app_assoc; cbn [app]; reflexivity).
  rewrite (blanks_char _ 58 _ TR) by (cbn; lia). cbn [rbind hd0 hd]. change (negb (58 =? 58)) with false. cbv iota. rewrite adv1.
  pose proof (written_opens e t W) as O. rewrite (blanks_solid b2 _ B2 (opens_solid t _ O)). cbn [rbind].
  destruct O as (d & t'' & Et & Od). apply opnd_range in Od. assert (Hd : hd0 (t ++ b3 ++ 125 :: r) = d) by (rewrite Et; reflexivity). rewrite Hd.
  assert (d =? 125 = false) as -> by lia. rewrite (parse_closing e t b3 (125 :: r) W B3) by (unfold closing; cbn; tauto). cbn [rbind fst snd].
  destruct (List.length _) as [|f] eqn:L; [rewrite app_length in L; rewrite EK in L; discriminate L|]. rewrite pairs_S. reflexivity.
Qed.

Variable make : list Z -> option bool.
Variable bare : list Z -> bool.
Variable has_ctor : list Z -> nat -> bool.
Notation read_new := (read_new other kind known is_type makes make bare has_ctor).
(** Up to the parenthesis. *)
Lemma new_front : forall l n b1 b2 v, In (hd 0 b1) [32; 9; 10; 13] -> trivia b1 -> dotted l n -> trivia b2 ->
  exists e, read_new (bytes "new" ++ b1 ++ n ++ b2 ++ 40 :: v) =
  match make l with
  | Some false => Thr
  | Some true =>
      do w <- blanks v;
      if (hd0 w =? 41) && bare l then Ok ([ENewType l], adv 1 w)
      else
        do r <- new_args (S (List.length w)) w;
        if has_ctor l (List.length (fst r))
        then Ok (ENewType l :: ELoadCtor :: map EExpr (fst r) ++ [ECtorCall (List.length (fst r))], adv 1 (snd r))
        else Thr
  | None =>
      do x <- parse e;
      do w <- blanks v;
      do r <- new_args (S (List.length w)) w;
      Ok (EExpr (fst x) :: ENewValue :: map EExpr (fst r) ++ [ECtorCall (List.length (fst r))], adv 1 (snd r))
  end.
Proof.
  intros l n b1 b2 v LB B1 D B2. unfold LitModel.read_new.
  assert (BN : blanks (bytes "new" ++ b1 ++ n ++ b2 ++ 40 :: v) = Ok (bytes "new" ++ b1 ++ n ++ b2 ++ 40 :: v)) by (apply (blanks_solid [] (bytes "new" ++ b1 ++ n ++ b2 ++ 40 :: v) tr_nil), solid_first; cbn; lia).
  rewrite BN. cbn [rbind].
  assert (Kw : is_keyword (bytes "new" ++ b1 ++ n ++ b2 ++ 40 :: v) = Ok (Some KwNew)).
  { destruct (is_keyword_spec (bytes "new" ++ b1 ++ n ++ b2 ++ 40 :: v)) as (o & -> & S).
    assert (KA : keyword_at KwNew (bytes "new" ++ b1 ++ n ++ b2 ++ 40 :: v)).
    { destruct b1 as [|c b1]; [cbn in LB; intuition discriminate|]. cbn in LB. exists ((c :: b1) ++ n ++ b2 ++ 40 :: v). split; [reflexivity|]. left. cbn. intuition lia. }
    apply f_equal, S, KA. }
  rewrite Kw. cbn [rbind]. change (adv 3 (bytes "new" ++ b1 ++ n ++ b2 ++ 40 :: v)) with (b1 ++ n ++ b2 ++ 40 :: v).
  assert (So : solid (n ++ b2 ++ 40 :: v)).
  { destruct D as [x (c & v' & -> & A' & _)|x x1 x2 l' t' (c & v' & -> & A' & _) _ _ _]; cbn [app]; apply solid_first; apply alpha_range in A'; cbn; intuition lia. }
  rewrite (blanks_solid b1 _ B1 So). cbn [rbind]. destruct (names_read l n D (S (List.length (n ++ b2 ++ 40 :: v))) b2 v) as (e & NR); [rewrite app_length; lia | exact B2|].
  exists e. rewrite NR. cbn [rbind]. rewrite blanks_self by (cbn; lia). cbn [rbind]. rewrite adv1. reflexivity.
Qed.
Lemma new_head : forall l n b1 b2 b3 v, In (hd 0 b1) [32; 9; 10; 13] -> trivia b1 -> dotted l n -> trivia b2 -> trivia b3 -> solid v -> make l = Some true ->
  read_new (bytes "new" ++ b1 ++ n ++ b2 ++ 40 :: b3 ++ v) =
  if (hd0 v =? 41) && bare l then Ok ([ENewType l], adv 1 v)
  else
    do r <- new_args (S (List.length v)) v;
    if has_ctor l (List.length (fst r))
    then Ok (ENewType l :: ELoadCtor :: map EExpr (fst r) ++ [ECtorCall (List.length (fst r))], adv 1 (snd r))
    else Thr.
Proof.
  intros l n b1 b2 b3 v LB B1 D B2 B3 A Mk. destruct (new_front l n b1 b2 (b3 ++ v) LB B1 D B2) as (e & ->). rewrite Mk, (blanks_solid b3 _ B3 A). reflexivity.
Qed.
Lemma new_read : forall l n b1 b2 b3 es t r, In (hd 0 b1) [32; 9; 10; 13] -> trivia b1 -> dotted l n -> trivia b2 -> trivia b3 -> arg_text written es t ->
  make l = Some true -> has_ctor l (List.length es) = true ->
  read_new (bytes "new" ++ b1 ++ n ++ b2 ++ 40 :: b3 ++ t ++ 41 :: r) = Ok (if bare l && match t with [] => true | _ => false end then [ENewType l] else new_code l es, r).
Proof.
  intros l n b1 b2 b3 es t r LB B1 D B2 B3 A Mk Ct. rewrite (new_head l n b1 b2 b3 (t ++ 41 :: r) LB B1 D B2 B3 (proj1 (arg_first es t r A)) Mk).
  destruct (arg_first es t r A) as (_ & [->|O]).
  - cbn [app hd0 hd]. change (41 =? 41) with true. rewrite andb_true_l, andb_true_r. inversion A; subst; [|exfalso; match goal with H : _ ++ _ = [] |- _ => apply app_eq_nil in H; destruct H as [? _]; subst; match goal with W : ParseSpec.written _ _ _ _ _ _ [] |- _ => destruct (written_opens _ _ W) as (? & ? & ? & _); discriminate end end..].
    destruct (bare l); [reflexivity|]. rewrite new_args_S. cbn [hd0 hd]. change (41 =? 41) with true. cbn [rbind fst snd]. cbn [List.length] in Ct |- *. rewrite Ct. reflexivity.
  - rewrite (opens_hd t _ O), andb_false_l. destruct t as [|c t]; [destruct O as (? & ? & ? & _); discriminate|]. rewrite andb_false_r.
    rewrite (new_args_read es _ A) by (rewrite app_length; lia). cbn [rbind fst snd]. rewrite map_length, Ct, map_map, adv1. reflexivity.
Qed.
Lemma new_refused : forall l n b1 b2 v, In (hd 0 b1) [32; 9; 10; 13] -> trivia b1 -> dotted l n -> trivia b2 -> make l = Some false ->
  read_new (bytes "new" ++ b1 ++ n ++ b2 ++ 40 :: v) = Thr.
Proof. intros l n b1 b2 v LB B1 D B2 Mk. destruct (new_front l n b1 b2 v LB B1 D B2) as (e & ->). rewrite Mk. reflexivity. Qed.
Lemma new_no_ctor : forall l n b1 b2 b3 es t r, In (hd 0 b1) [32; 9; 10; 13] -> trivia b1 -> dotted l n -> trivia b2 -> trivia b3 -> arg_text written es t -> es <> [] ->
  make l = Some true -> has_ctor l (List.length es) = false -> read_new (bytes "new" ++ b1 ++ n ++ b2 ++ 40 :: b3 ++ t ++ 41 :: r) = Thr.
Proof.
  intros l n b1 b2 b3 es t r LB B1 D B2 B3 A NE Mk Ct. rewrite (new_head l n b1 b2 b3 (t ++ 41 :: r) LB B1 D B2 B3 (proj1 (arg_first es t r A)) Mk).
  destruct (arg_first es t r A) as (_ & [->|O]).
  - inversion A; subst; [congruence|..]; exfalso; match goal with H : _ ++ _ = [] |- _ => apply app_eq_nil in H; destruct H as [? _]; subst; match goal with W : ParseSpec.written _ _ _ _ _ _ [] |- _ => destruct (written_opens _ _ W) as (? & ? & ? & _); discriminate end end.
  - rewrite (opens_hd t _ O), andb_false_l. rewrite (new_args_read es _ A) by (rewrite app_length; lia). cbn [rbind fst snd]. rewrite map_length, Ct. reflexivity.
Qed.
Lemma new_tern : forall l n b1 b2 b3 h tl e1 e2 t b u, In (hd 0 b1) [32; 9; 10; 13] -> trivia b1 -> dotted l n -> trivia b2 -> trivia b3 -> make l = Some true ->
  written (PExpr h tl (PTern e1 e2)) t -> trivia b -> closing u -> read_new (bytes "new" ++ b1 ++ n ++ b2 ++ 40 :: b3 ++ t ++ b ++ u) = Thr.
Proof.
  intros l n b1 b2 b3 h tl e1 e2 t b u LB B1 D B2 B3 Mk W B C. pose proof (written_opens _ t W) as O. rewrite (new_head l n b1 b2 b3 (t ++ b ++ u) LB B1 D B2 B3 (opens_solid t _ O) Mk).
  rewrite (opens_hd t _ O), andb_false_l, new_args_S, (opens_hd t _ O). rewrite (until_tern [44; 41] (t ++ b ++ u) h tl e1 e2 u); [reflexivity | cbn; lia | apply parse_closing; auto].
Qed.
End Read.
