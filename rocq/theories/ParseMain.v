(** Written expressions are read as what they are: the induction over the writing. *)
From Coq Require Import List ZArith Bool Lia String.
From Verif Require Import Base StringModel LexModel LexSpec LexProofs LexOps LexTok ParseModel ParseSpec ParseLex ParseProofs.
Import ListNotations.
Local Open Scope Z_scope.

Local Arguments ends_here : simpl never.
Local Arguments blanks : simpl never.
Local Arguments is_operator : simpl never.
Local Arguments is_keyword : simpl never.
Local Arguments is_pre_operation : simpl never.
Local Arguments is_post_operation : simpl never.
Local Arguments symbol_token : simpl never.
Local Arguments Nat.mul : simpl never.
Local Arguments Nat.add : simpl never.
Local Arguments adv : simpl never.

Section Main.
Variable other : okind -> ptr -> res (Z * ptr).
Variable kind : literal -> option bool.
Variable known is_type : list Z -> bool.
Variable makes : pexpr -> bool.
Notation p_sub := (p_sub other kind known is_type makes).
Notation p_toks := (p_toks other kind known is_type makes).
Notation p_opnd := (p_opnd other kind known is_type makes).
Notation p_core := (p_core other kind known is_type makes).
Notation p_accs := (p_accs other kind known is_type makes).
Notation p_args := (p_args other kind known is_type makes).
Notation len := List.length.

Definition acc_step (f : nat) (s : ptr) : res (pacc * ptr) :=
  if hd0 s =? 40 then
    do b <- blanks (adv 1 s);
    do g <- p_args f true b;
    Ok (PCall (fst g), adv 1 (snd g))
  else if hd0 s =? 91 then
    do g <- p_sub f (adv 1 s);
    if hd0 (snd g) =? 93 then Ok (PIdx (fst g), adv 1 (snd g)) else Thr
  else
    do b <- blanks (adv 1 s);
    do g <- accessor_name b;
    Ok (PDot (fst g), snd g).
Lemma p_accs_eq : forall f s, p_accs (Datatypes.S f) s =
  do r <- acc_step f s;
  let '(a, aux) := r in
  do test <- blanks aux;
  if punct test then do r2 <- p_accs f test; Ok (ACons a (fst r2), snd r2)
  else Ok (ACons a ANil, aux).
Proof. reflexivity. Qed.

Lemma p_sub_eq : forall f (s : ptr), p_sub (Datatypes.S f) s =
      (* compiler_expression.cpp:51-66; the test looks at the character before the blanks *)
      do u <- blanks s;
      if existsb (Z.eqb (hd0 s)) [41; 44; 93; 0; 125] then Thr
      else
        do e <- ends_here u;
        if (e : bool) then Ok (PNone, u)
        else
          do r <- p_toks f u;
          let '(h, tl, v) := r in
          if negb (assign_ok h tl) then Thr
          else if hd0 v =? 63 then
            (* compiler_expression_byte_code.cpp:431-507 *)
            do r1 <- p_sub f (adv 1 v);
            match fst r1 with
            | PNone => Thr    (* it ends at something that is not [:] *)
            | PSome e1 =>
                if negb (hd0 (snd r1) =? 58) then Thr
                else do r2 <- p_sub f (adv 1 (snd r1)); Ok (PSome (PExpr h tl (PTern e1 (fst r2))), snd r2)
            end
          else Ok (PSome (PExpr h tl PNoTern), v).
Proof. reflexivity. Qed.
Lemma p_toks_eq : forall f (s : ptr), p_toks (Datatypes.S f) s =
      do r <- p_opnd f s;
      let '(a, aux) := r in
      do u <- blanks aux;
      do o <- is_operator u;
      do e <- ends_here u;
      match o with
      | Some OpTernaryIf | Some OpTernaryElse => Ok (a, PNil, u)
      | Some p =>
          if (e : bool) then Ok (a, PNil, u)
          else
            do v <- blanks (adv (List.length (spelling p)) u);
            do r2 <- p_toks f v;
            let '(b, tl, w) := r2 in Ok (a, PCons p b tl, w)
      | None => if (e : bool) || newline_in aux u then Ok (a, PNil, u) else Thr
      end.
Proof. reflexivity. Qed.
Lemma p_opnd_eq : forall f (s : ptr), p_opnd (Datatypes.S f) s =
      do pre <- is_pre_operation s;
      do s1 <- (match pre with
                | None => Ok s
                | Some PreInvalid => Thr
                | Some q => Ok (adv (List.length (pre_spelling q)) s)
                end);
      do s2 <- blanks s1;
      do r <- p_core f pre s2;
      let '(c, t, aux) := r in
      do left <- take_pre pre t;
      do test <- blanks aux;
      do ra <- (if punct test then if access_ok is_type makes t c test then p_accs f test else Thr else Ok (ANil, aux));
      let '(acs, aux2) := ra in
      do q <- is_post_operation aux2;
      do rp <- (match q with
                | Some PostInc | Some PostDec =>
                    if post_ok pre t
                    then Ok (Some (match q with Some PostInc => true | _ => false end), adv 2 aux2) else Thr
                | _ => Ok (None, aux2)
                end);
      if pre_ok is_type left t c then Ok (POpd pre c acs (fst rp), snd rp) else Thr.
Proof. reflexivity. Qed.
Lemma p_core_eq : forall f (pre : option preop) (s : ptr), p_core (Datatypes.S f) pre s =
      if hd0 s =? 40 then
        match pre with
        | Some PreInc | Some PreDec => Thr
        | _ =>
            do r <- p_sub f (adv 1 s);
            match fst r with
            | PNone => Thr    (* compiler_instructions.get(0) of an empty vector, 323, 693 *)
            | PSome e => if hd0 (snd r) =? 41 then Ok (CParen e, TyParen, adv 1 (snd r)) else Thr
            end
        end
      else
        do k <- is_keyword s;
        if hd0 s =? 91 then do x <- other KVector s; Ok (COther KVector (fst x), TyContainer, snd x)
        else if hd0 s =? 123 then do x <- other KObject s; Ok (COther KObject (fst x), TyContainer, snd x)
        else
          match k with
          | Some KwNew => do x <- other KNew s; Ok (COther KNew (fst x), TyNew, snd x)
          | Some KwFunction => do x <- other KFunction s; Ok (COther KFunction (fst x), TyContainer, snd x)
          | _ =>
              do r <- symbol_token s;
              match fst r with
              | TLit l =>
                  match kind l with
                  | Some true => Ok (CLit l, TyInt, snd r)
                  | Some false => Ok (CLit l, TyFloat, snd r)
                  | None => Thr
                  end
              | TStr v => Ok (CStr v, TyString, snd r)
              | TWord w => word_core other known w s (snd r)
              end
          end.
Proof. reflexivity. Qed.
Lemma p_args_eq : forall f (first : bool) (s : ptr), p_args (Datatypes.S f) first s =
      if hd0 s =? 41 then Ok (GNil, s)
      else
        do b <- (if first then Ok s else if hd0 s =? 44 then blanks (adv 1 s) else Thr);
        if negb first && (hd0 b =? 41) then Ok (GNil, b)
        else
          do r <- p_sub f b;
          match fst r with
          | PNone =>    (* it ends at a character that is neither a comma nor a parenthesis *)
              Thr
          | PSome e => do g <- p_args f false (snd r); Ok (GCons e (fst g), snd g)
          end.
Proof. reflexivity. Qed.

Definition ty (s : sort) : ttype :=
  match s with
  | SInt => TyInt | SFloat => TyFloat | STruth => TyBool | SNothing => TyVoid | SString => TyString
  | SName => TyIdent | SParen => TyParen | SContainer => TyContainer | SNew => TyNew
  end.

Definition P_expr (e : pexpr) (t : list Z) : Prop :=
  opens opnd_first t /\
  forall b0 x u f, trivia b0 -> sub_stop x u -> (8 * len t + 4 <= f)%nat -> p_sub f (b0 ++ t ++ x) = Ok (PSome e, u).
Definition P_opnd (a : popnd) (t : list Z) : Prop :=
  opens opnd_first t /\
  forall x, rest_ok x -> ends_here (t ++ x) = Ok false /\
    forall f, (8 * len t + 2 <= f)%nat -> p_opnd f (t ++ x) = Ok (a, x).
Definition P_ops (tl : pops) (t2 : list Z) : Prop :=
  (forall x u, toks_stop x u -> rest_ok (t2 ++ x)) /\
  forall h t1, P_opnd h t1 -> forall x u f, toks_stop x u -> (8 * len (t1 ++ t2) + 3 <= f)%nat ->
    p_toks f (t1 ++ t2 ++ x) = Ok (h, tl, u).
Definition P_tern (tn : ptern) (t3 : list Z) : Prop :=
  (tn = PNoTern /\ t3 = []) \/
  exists e1 e2 b1 b2 b3 b4 t1 t2, tn = PTern e1 (PSome e2) /\
    trivia b1 /\ trivia b2 /\ trivia b3 /\ trivia b4 /\ P_expr e1 t1 /\ P_expr e2 t2 /\
    t3 = b1 ++ 63 :: b2 ++ t1 ++ b3 ++ 58 :: b4 ++ t2.
Definition P_core (c : pcore) (s : sort) (t : list Z) : Prop :=
  opens core_first t /\
  forall x, after x -> (s = SInt \/ s = SFloat -> hd 0 x <> 46) ->
    is_pre_operation (t ++ x) = Ok None /\ ends_here (t ++ x) = Ok false /\
    forall pre f, (s = SParen -> pre <> Some PreInc /\ pre <> Some PreDec) -> (8 * len t + 1 <= f)%nat ->
      p_core f pre (t ++ x) = Ok (c, ty s, x).
Definition P_accs (acs : paccs) (t : list Z) : Prop :=
  (acs = ANil /\ t = []) \/
  exists b u, trivia b /\ t = b ++ u /\ In (hd 0 u) [46; 91; 40] /\ (first_dot acs -> hd 0 u = 46) /\ acs <> ANil /\
    forall x f, acc_rest x -> (8 * len u + 1 <= f)%nat -> p_accs f (u ++ x) = Ok (acs, x).
Definition P_acc (a : pacc) (t : list Z) : Prop :=
  In (hd 0 t) [46; 91; 40] /\ (match a with PDot _ => hd 0 t = 46 | _ => True end) /\ 
  forall x f, after x -> (8 * len t <= f)%nat -> acc_step f (t ++ x) = Ok (a, x).
Definition P_args (g : pargs) (t : list Z) : Prop :=
  (t = [] \/ opens opnd_first t) /\
  forall x f, hd 0 x = 41 -> (8 * len t + 5 <= f)%nat -> p_args f true (t ++ x) = Ok (g, x).
Definition P_more (g : pargs) (t : list Z) : Prop :=
  (t = [] \/ hd 0 t = 44) /\
  forall x f, hd 0 x = 41 -> (8 * len t + 5 <= f)%nat -> p_args f false (t ++ x) = Ok (g, x).

Ltac lens := repeat (progress (rewrite ?app_length in *; cbn [List.length] in *)); try lia.

Lemma expr_case : forall h tl tn t1 t2 t3, P_opnd h t1 -> P_ops tl t2 -> P_tern tn t3 -> assigns h tl ->
  P_expr (PExpr h tl tn) (t1 ++ t2 ++ t3).
Proof.
  intros h tl tn t1 t2 t3 H1 H2 H3 A. destruct (H1) as [O HO]. split.
  { destruct O as (c & t' & -> & K). exists c, (t' ++ t2 ++ t3). auto. }
  intros b0 x u f B ST L. rewrite <- !app_assoc. destruct f as [|f]; [lia|]. rewrite p_sub_eq.
  rewrite blanks_solid by (auto; apply opens_solid; auto). cbn [rbind].
  assert (HD : existsb (Z.eqb (hd0 (b0 ++ t1 ++ t2 ++ t3 ++ x))) [41; 44; 93; 0; 125] = false).
  { destruct (existsb _ _) eqn:E; [|reflexivity]. exfalso. apply existsb_In in E. unfold hd0 in E.
    destruct (op_after_hd b0 t1 (t2 ++ t3 ++ x) B O) as [K|K].
    - cbn [In] in E, K. intuition lia.
    - apply opnd_range in K. cbn [In] in E. intuition lia. }
  rewrite HD. clear HD.
  assert (V : exists v, toks_stop (t3 ++ x) v /\
    ((tn = PNoTern /\ v = u /\ hd 0 u <> 63) \/
     exists e1 e2 b2 b3 b4 s1 s2, tn = PTern e1 (PSome e2) /\ v = 63 :: b2 ++ s1 ++ b3 ++ 58 :: b4 ++ s2 ++ x /\
       trivia b2 /\ trivia b3 /\ trivia b4 /\ P_expr e1 s1 /\ P_expr e2 s2 /\ (len s1 < len t3)%nat /\ (len s2 < len t3)%nat)).
  { destruct H3 as [[-> ->]|(e1 & e2 & b1 & b2 & b3 & b4 & s1 & s2 & -> & T1 & T2 & T3 & T4 & E1 & E2 & ->)].
    - exists u. destruct ST as [ST1 ST2]. split; [exact ST1 | left; auto].
    - exists (63 :: b2 ++ s1 ++ b3 ++ 58 :: b4 ++ s2 ++ x). split.
      + repeat (rewrite <- app_assoc; cbn [app]). apply question_stop; auto.
      + right. exists e1, e2, b2, b3, b4, s1, s2. repeat split; auto; try apply E1; try apply E2; lens. }
  destruct V as (v & TS & V). destruct H2 as [R H2].
  destruct (HO (t2 ++ t3 ++ x) (R _ _ TS)) as [EH _]. rewrite EH. cbn [rbind].
  rewrite (H2 h t1 H1 (t3 ++ x) v f TS) by lens. cbn [rbind]. rewrite (assigns_ok tl h A). cbn [negb].
  destruct V as [(-> & -> & N)|(e1 & e2 & b2 & b3 & b4 & s1 & s2 & -> & -> & T2 & T3 & T4 & [O1 E1] & [O2 E2] & L1 & L2)].
  - destruct (Z.eqb_spec (hd0 u) 63); [contradiction|]. reflexivity.
  - cbn [hd0 hd Z.eqb Pos.eqb].
    change (adv 1 (63 :: b2 ++ s1 ++ b3 ++ 58 :: b4 ++ s2 ++ x)) with (b2 ++ s1 ++ b3 ++ 58 :: b4 ++ s2 ++ x).
    rewrite (E1 b2 (b3 ++ 58 :: b4 ++ s2 ++ x) (58 :: b4 ++ s2 ++ x)); [|exact T2| |lens].
    2:{ apply colon_stop; [exact T3 | reflexivity|]. cbn [List.tl]. destruct (op_after_hd b4 s2 x T4 O2) as [K|K].
        - cbn [In] in K. lia.
        - apply opnd_range in K. lia. }
    cbn [rbind fst snd hd0 hd Z.eqb Pos.eqb negb].
    change (adv 1 (58 :: b4 ++ s2 ++ x)) with (b4 ++ s2 ++ x).
    rewrite (E2 b4 x u) by (auto; lens). reflexivity.
Qed.

Lemma ops_nil : P_ops PNil [].
Proof.
  split; [intros x u ST; apply ST|]. intros h t1 [O H] x u f ST L. cbn [app]. destruct f as [|f]; [lia|]. rewrite p_toks_eq.
  destruct ST as (R & B & o & e & EO & EE & M). destruct (H x R) as [_ HP]. rewrite HP by lens. cbn [rbind]. rewrite B. cbn [rbind].
  rewrite EO, EE. cbn [rbind]. destruct o as [o|]; [|rewrite M; reflexivity]. destruct o; try reflexivity; subst e; reflexivity.
Qed.
Lemma ops_cons : forall o a tl b1 b2 t t2, trivia b1 -> trivia b2 -> o <> OpTernaryIf -> o <> OpTernaryElse ->
  P_opnd a t -> P_ops tl t2 -> glue o b1 (b2 ++ t) -> P_ops (PCons o a tl) (b1 ++ spelling o ++ b2 ++ t ++ t2).
Proof.
  intros o a tl b1 b2 t t2 T1 T2 N1 N2 HA [R2 H2] G. destruct (HA) as [OA _].
  assert (ST2 : forall x, rest_ok ((b1 ++ spelling o ++ b2 ++ t ++ t2) ++ x)).
  { intros x. destruct (op_step o b1 b2 t (t2 ++ x) T1 T2 N1 N2 OA G) as (R & _). repeat rewrite <- app_assoc. exact R. }
  split; [auto|]. intros h t1 [O H] x u f ST L. destruct f as [|f]; [lia|]. rewrite p_toks_eq.
  destruct (op_step o b1 b2 t (t2 ++ x) T1 T2 N1 N2 OA G) as (R & B & EO & EE).
  destruct (H _ (ST2 x)) as [_ HP]. rewrite HP by lens. cbn [rbind]. repeat rewrite <- app_assoc.
  rewrite B. cbn [rbind]. rewrite EO, EE. cbn [rbind].
  assert (V : (do v <- blanks (adv (len (spelling o)) (spelling o ++ b2 ++ t ++ t2 ++ x));
               do r2 <- p_toks f v; let '(b, tl', w) := r2 in Ok (h, PCons o b tl', w)) = Ok (h, PCons o a tl, u)).
  { rewrite adv_app, blanks_solid by (auto; apply opens_solid; auto). cbn [rbind].
    rewrite (H2 a t HA x u f ST); [reflexivity|].
    assert (1 <= len (spelling o))%nat by (destruct o; cbn; lia). lens. }
  destruct o; try congruence; exact V.
Qed.

Lemma after_accs : forall acs ta x, P_accs acs ta -> after x -> after (ta ++ x).
Proof.
  intros acs ta x [[-> ->]|(b & u & T & -> & I & _)] A; [exact A|]. rewrite <- app_assoc.
  destruct b as [|c b]; [|apply trivia_after; [exact T | discriminate]]. cbn [app].
  destruct u as [|c u]; [cbn in I; lia|]. apply after_first; cbn in I |- *; intuition.
Qed.
Lemma accs_acc : forall acs ta x, P_accs acs ta -> acc_rest x ->
  (acs = ANil /\ ta = []) \/ exists u, blanks (ta ++ x) = Ok (u ++ x) /\ punct (u ++ x) = true /\ (len u <= len ta)%nat /\ 
    (first_dot acs -> hd 0 (u ++ x) = 46) /\ 
    forall f, (8 * len u + 1 <= f)%nat -> p_accs f (u ++ x) = Ok (acs, x).
Proof.
  intros acs ta x [[-> ->]|(b & u & T & -> & I & D & N & H)] R; [left; auto|]. right. exists u.
  destruct u as [|c u]; [cbn in I; lia|]. cbn [hd] in I. split; [|split; [|split; [|split]]].
  - rewrite <- app_assoc. apply blanks_solid; [exact T|]. apply solid_first. cbn in I |- *. intuition lia.
  - apply punct_true. exact I.
  - lens.
  - exact D.
  - intros f. apply H. exact R.
Qed.
Lemma count_blanks : forall a x, In a [43; 45] -> blanks (a :: a :: x) = Ok (a :: a :: x) /\ punct (a :: a :: x) = false /\ after (a :: a :: x).
Proof.
  intros a x H. split; [|split].
  - apply (blanks_solid []); [constructor|]. apply solid_first. cbn in H |- *. intuition lia.
  - apply punct_false. cbn in H |- *. intuition lia.
  - apply after_first; cbn in H |- *; intuition lia.
Qed.
Lemma no_post : forall x, no_count x -> exists q, is_post_operation x = Ok q /\ q <> Some PostInc /\ q <> Some PostDec.
Proof.
  intros x [N1 N2]. unfold is_post_operation. cbn [first_of]. destruct x as [|c x].
  - exists None. repeat split; try discriminate; reflexivity.
  - unfold is_dec, is_inc, is_dec_inc_invalid. rewrite !two_cons. cbn [rbind]. cbn in N1, N2. unfold hd0.
    destruct (Z.eqb_spec c 45), (Z.eqb_spec c 43); subst; try lia; cbn [andb rbind].
    + destruct (Z.eqb_spec (hd 0 x) 45); [exfalso; apply N2; [reflexivity | assumption]|]. cbn [rbind].
      destruct (hd 0 x =? 43); cbn [rbind]; eexists; (split; [reflexivity | split; discriminate]).
    + destruct (Z.eqb_spec (hd 0 x) 43); [exfalso; apply N1; [reflexivity | assumption]|]. cbn [rbind].
      destruct (hd 0 x =? 45); cbn [rbind]; eexists; (split; [reflexivity | split; discriminate]).
    + eexists; (split; [reflexivity | split; discriminate]).
Qed.

Lemma opnd_case : forall pre p c s t acs ta post, prefix pre p -> P_core c s t -> P_accs acs ta -> fits s pre post ->
  (s = SInt \/ s = SFloat -> acs = ANil) ->
  (pre = Some PreTypeof -> is_type (token_value c) = false) ->
  (acs = ANil \/ s = SContainer \/ (s = SString /\ first_dot acs) \/
     (exists w, c = CWord w /\ s = SName /\ is_type w = false) \/
     (exists e, c = CParen e /\ makes e = true /\ first_dot acs /\ s = SParen)) ->
  P_opnd (POpd pre c acs post) (p ++ t ++ ta ++ postfix post).
Proof.
  intros pre p c s t acs ta post P [OC HC] HA F NA TY AC.
  assert (O : opens opnd_first (p ++ t ++ ta ++ postfix post)).
  { destruct pre as [q|]; cbn in P.
    - destruct P as (NI & b & _ & -> & _). destruct q; try congruence; eexists _, _; (split; [reflexivity|]); 
      first [right; cbn; tauto | left; left; reflexivity].
    - subst p. apply core_opnd in OC. destruct OC as (d & t' & -> & K). eexists _, _. split; [reflexivity | exact K]. }
  split; [exact O|]. intros x R. repeat rewrite <- app_assoc.
  assert (RP : acc_rest (postfix post ++ x)).
  { destruct post as [[]|]; cbn [postfix bytes app]; [..|apply R].
    - destruct (count_blanks 43 x) as (X1 & X2 & X3); [cbn; tauto|]. split; [exact X3 | exists (43 :: 43 :: x); auto].
    - destruct (count_blanks 45 x) as (X1 & X2 & X3); [cbn; tauto|]. split; [exact X3 | exists (45 :: 45 :: x); auto]. }
  set (y := ta ++ postfix post ++ x).
  assert (AY : after y) by (apply (after_accs acs); [exact HA | apply RP]).
  assert (DY : s = SInt \/ s = SFloat -> hd 0 y <> 46).
  { intros K. pose proof (NA K) as ->. subst y. destruct HA as [[_ ->]|(b & u & _ & _ & _ & _ & X & _)]; [|congruence].
    assert (post = None) as ->. { destruct post; [|reflexivity]. destruct F as [[-> _] _]. destruct K; discriminate. }
    cbn [app]. destruct R as [[[[I|[r ->]] _] (u & B & PU)] _]; [|cbn; lia]. intros E. cbn [postfix app] in E.
    assert (SX : solid x) by (apply solid_hd; rewrite E; cbn; intuition lia).
    change x with ([] ++ x) in B. rewrite (blanks_solid [] x) in B by (auto; constructor). inversion B; subst.
    rewrite punct_true in PU; [discriminate|]. rewrite E. cbn. tauto. }
  destruct (HC y AY DY) as (PN & EH & HP).
  assert (OY : opens core_first (t ++ y)) by (destruct OC as (d & t' & -> & K); eexists _, _; split; [reflexivity | exact K]).
  destruct (prefix_read pre p (t ++ y) P OY PN EH) as (PR & PE & s1 & S1 & SB).
  split; [exact PE|]. intros f L. destruct f as [|f]; [lia|]. rewrite p_opnd_eq. rewrite PR. cbn [rbind].
  rewrite S1. cbn [rbind]. rewrite SB. cbn [rbind].
  rewrite HP; [|intros ->; destruct F as [_ F]; cbn in F; intuition congruence | lens]. cbn [rbind].
  assert (TK : exists left, take_pre pre (ty s) = Ok left /\ pre_ok is_type left (ty s) c = true).
  { destruct F as [_ F]. destruct s; cbn [ty];
      try (cbn in F; repeat (destruct F as [<-|F]; [eexists; split; [reflexivity|]; cbn [pre_ok]; try reflexivity; rewrite TY by reflexivity; reflexivity|]); contradiction).
    exists pre. split; [reflexivity|]. destruct pre as [[]|]; cbn [pre_ok]; try reflexivity. rewrite TY by reflexivity. reflexivity. }
  destruct TK as (left & TK & PO). rewrite TK. cbn [rbind].
  assert (ACC : exists test, blanks y = Ok test /\
     (if punct test then if access_ok is_type makes (ty s) c test then p_accs f test else Thr else @Ok (paccs * ptr) (@pair paccs ptr ANil y)) = Ok (acs, postfix post ++ x)).
  { destruct (accs_acc acs ta (postfix post ++ x) HA RP) as [[-> ->]|(u & B & PU & LU & FD & HF)].
    - subst y. cbn [app]. destruct RP as [_ (u & B & PU)]. exists u. split; [exact B|]. rewrite PU. reflexivity.
    - exists (u ++ postfix post ++ x). split; [exact B|]. rewrite PU.
      assert (access_ok is_type makes (ty s) c (u ++ postfix post ++ x) = true) as ->.
      { destruct AC as [->|[->|[[-> D]|[(w & -> & -> & W)|(e & -> & M & D & ->)]]]]; cbn [ty access_ok].
        - exfalso. destruct HA as [[_ ->]|(b & u' & _ & _ & _ & _ & X & _)]; [|congruence].
          cbn [app] in B. destruct RP as [_ (u' & B' & PU')]. cbn in B. rewrite B' in B. inversion B; subst. congruence.
        - reflexivity.
        - unfold hd0. rewrite (FD D). reflexivity.
        - rewrite W. reflexivity.
        - unfold hd0. rewrite M, (FD D). reflexivity. }
      apply HF. assert (1 <= len t)%nat by (apply (opens_len _ _ OC)). lens. }
  destruct ACC as (test & B & ACC). rewrite B. cbn [rbind]. rewrite ACC. cbn [rbind].
  destruct post as [[]|]; cbn [postfix].
  - assert (is_post_operation (bytes "++" ++ x) = Ok (Some PostInc)) as -> by reflexivity. cbn [rbind].
    assert (post_ok pre (ty s) = true) as -> by (destruct F as [[-> F] _]; cbn in F; repeat (destruct F as [<-|F]; [reflexivity|]); contradiction).
    cbn [rbind fst snd]. rewrite PO. reflexivity.
  - assert (is_post_operation (bytes "--" ++ x) = Ok (Some PostDec)) as -> by reflexivity. cbn [rbind].
    assert (post_ok pre (ty s) = true) as -> by (destruct F as [[-> F] _]; cbn in F; repeat (destruct F as [<-|F]; [reflexivity|]); contradiction).
    cbn [rbind fst snd]. rewrite PO. reflexivity.
  - cbn [app]. destruct R as [_ NC]. destruct (no_post x NC) as (q & -> & Q1 & Q2). cbn [rbind].
    destruct q as [[]|]; try congruence; cbn [rbind fst snd]; rewrite PO; reflexivity.
Qed.

(** ** Operands without prefix *)
Lemma ends_false : forall u, is_keyword u = Ok None -> ~ closing u -> ends_here u = Ok false.
Proof.
  intros u K C. unfold ends_here. rewrite K. cbn [rbind is_anonymous]. rewrite peek0. cbn [rbind]. rewrite orb_false_r.
  f_equal. unfold is_end_char. destruct (existsb _ _) eqn:E; [|reflexivity]. apply existsb_In in E. contradiction.
Qed.
Lemma core_not_closing : forall t x, opens core_first t -> ~ closing (t ++ x).
Proof. intros t x (c & t' & -> & H) C. apply core_range in H. unfold closing in C. cbn in C. intuition lia. Qed.
Lemma word_opens : forall w, word w -> opens core_first w.
Proof. intros w (c & w' & -> & A & _). exists c, w'. split; [reflexivity | left; apply alpha_alnum; exact A]. Qed.
Lemma word_facts : forall w x, word w -> (forall k, w <> kw_spelling k) -> w <> bytes "typeof" -> after x ->
  is_pre_operation (w ++ x) = Ok None /\ ends_here (w ++ x) = Ok false /\ is_keyword (w ++ x) = Ok None /\
  symbol_token (w ++ x) = Ok (TWord w, x) /\ hd0 (w ++ x) =? 40 = false /\ hd0 (w ++ x) =? 91 = false /\ hd0 (w ++ x) =? 123 = false.
Proof.
  intros w x W K N [E _]. assert (A := ends_not_alnum x E). assert (KW := word_no_keyword w x W K A).
  assert (NT : ~ word_at (bytes "typeof") (w ++ x)) by (apply word_no_word_at; auto; repeat constructor).
  split; [|split; [|split; [exact KW|split; [apply word_symbol; auto|]]]].
  - destruct (word_opens w W) as (c & w' & -> & H). cbn [app] in *. apply pre_none; auto.
  - apply ends_false; [exact KW | apply core_not_closing, word_opens, W].
  - destruct W as (c & w' & -> & H & _). apply alpha_range in H. cbn [app hd0 hd]. rewrite !Z.eqb_neq. lia.
Qed.
Lemma word_core_read : forall w s x, word w -> (forall k, w <> kw_spelling k) -> w <> bytes "typeof" ->
  (forall y, after y -> word_core other known w (w ++ y) y = Ok (CWord w, ty s, y)) -> s = x -> P_core (CWord w) s w.
Proof.
  intros w s x W K N H _. split; [apply word_opens, W|]. intros y A _.
  destruct (word_facts w y W K N A) as (PN & EH & KW & SY & H1 & H2 & H3). split; [exact PN|]. split; [exact EH|].
  intros pre f _ L. destruct f as [|f]; [lia|]. rewrite p_core_eq, H1, KW. cbn [rbind]. rewrite H2, H3, SY. cbn [rbind fst snd]. apply H, A.
Qed.
Lemma core_name : forall w, name w -> known w = true -> P_core (CWord w) SName w.
Proof.
  intros w N KN. assert (CK := name_check w N). destruct N as (W & K & T & U & N1 & N2 & N3 & N4).
  apply (word_core_read w SName SName); auto. intros y [_ A]. unfold word_core.
  assert (list_eqb w (bytes "undefined") || list_eqb w (bytes "null") = false) as ->.
  { destruct (_ || _) eqn:E; [|reflexivity]. exfalso. apply U. apply orb_true_iff in E. rewrite !eqb_list in E. exact E. }
  assert (is_bool w = false) as -> by (destruct (is_bool w) eqn:E; [apply is_bool_truth in E; contradiction | reflexivity]).
  assert (list_eqb w (bytes "this") = false) as ->.
  { destruct (list_eqb w (bytes "this")) eqn:E; [|reflexivity]. apply eqb_list in E. exfalso. apply (K KwThis). exact E. }
  assert (list_eqb w (bytes "super") = false) as ->.
  { destruct (list_eqb w (bytes "super")) eqn:E; [|reflexivity]. apply eqb_list in E. contradiction. }
  rewrite CK. cbn [rbind]. rewrite KN. cbn [negb orb].
  destruct (Z.eqb_spec (hd0 y) 58) as [E1|E1]; [|reflexivity]. destruct (Z.eqb_spec (hd0 (adv 1 y)) 58) as [E2|E2]; [|reflexivity].
  exfalso. apply A. split; [exact E1|]. destruct y; [discriminate E1 | exact E2].
Qed.
Lemma core_truth : forall w, truth w -> P_core (CWord w) STruth w.
Proof.
  intros w T. destruct (truth_kw w T) as (K & N & _). apply (word_core_read w STruth STruth); auto using truth_word.
  intros y _. unfold word_core. rewrite (proj2 (is_bool_truth w) T).
  destruct (list_eqb w (bytes "undefined") || list_eqb w (bytes "null")) eqn:E; [|reflexivity].
  apply orb_true_iff in E. rewrite !eqb_list in E. exfalso. apply is_bool_truth in T. destruct E; subst; discriminate.
Qed.
Lemma core_nothing : forall w, nothing w -> P_core (CWord w) SNothing w.
Proof.
  intros w T. destruct (nothing_word w T) as (W & K & N). apply (word_core_read w SNothing SNothing); auto.
  intros y _. destruct T; subst; reflexivity.
Qed.
Lemma core_number : forall v b s, numeral v -> kind (LText v) = Some b -> s = (if b then SInt else SFloat) -> P_core (CLit (LText v)) s v.
Proof.
  intros v b s N K E. destruct (number_first v N) as (c & v' & EV & H).
  assert (CF : core_first c).
  { destruct H as [H|H]; [left; unfold is_alnum_; rewrite H; apply orb_true_r | right; cbn; subst; tauto]. }
  assert (O : opens core_first v) by (exists c, v'; auto).
  split; [exact O|]. intros x [A _] D. assert (D' : hd 0 x <> 46) by (apply D; destruct b; auto).
  destruct (number_symbol v x N A D') as [SY KW].
  assert (R : 48 <= c <= 57 \/ c = 46). { destruct H as [H|H]; [|auto]. unfold is_digit, in_range in H. lia. }
  split; [|split].
  - rewrite EV. cbn [app]. apply pre_none; [exact CF|]. intros (d & r & Q & _). cbn in Q. inversion Q; subst. lia.
  - apply ends_false; [exact KW | apply core_not_closing, O].
  - intros pre f _ L. destruct f as [|f]; [lia|]. rewrite p_core_eq.
    assert (Z1 : hd0 (v ++ x) = c) by (rewrite EV; reflexivity). rewrite !Z1.
    destruct (Z.eqb_spec c 40); [lia|]. rewrite KW. cbn [rbind].
    destruct (Z.eqb_spec c 91); [lia|]. destruct (Z.eqb_spec c 123); [lia|]. rewrite SY. cbn [rbind fst snd]. rewrite K. subst s. destruct b; reflexivity.
Qed.
Lemma core_string : forall v, string_body v -> P_core (CStr v) SString (34 :: v ++ [34]).
Proof.
  intros v B. split; [exists 34, (v ++ [34]); split; [reflexivity | right; cbn; tauto]|]. intros x _ _.
  change ((34 :: v ++ [34]) ++ x) with (34 :: (v ++ [34]) ++ x). rewrite <- app_assoc. cbn [app].
  split; [reflexivity|]. split; [reflexivity|]. intros pre f _ L. destruct f as [|f]; [lia|]. rewrite p_core_eq.
  assert (KW : is_keyword (34 :: v ++ 34 :: x) = Ok None) by reflexivity. cbn [hd0 hd Z.eqb Pos.eqb]. rewrite KW. cbn [rbind].
  rewrite string_symbol by exact B. reflexivity.
Qed.
Lemma core_paren : forall e b1 b2 t, trivia b1 -> trivia b2 -> P_expr e t -> P_core (CParen e) SParen (40 :: b1 ++ t ++ b2 ++ [41]).
Proof.
  intros e b1 b2 t T1 T2 [O H]. split; [eexists _, _; split; [reflexivity | right; cbn; tauto]|]. intros x _ _.
  assert (EQ : (40 :: b1 ++ t ++ b2 ++ [41]) ++ x = 40 :: b1 ++ t ++ b2 ++ 41 :: x) by (cbn [app]; repeat rewrite <- app_assoc; reflexivity).
  split; [reflexivity|]. split; [reflexivity|]. intros pre f N L. rewrite EQ. destruct f as [|f]; [lia|]. rewrite p_core_eq.
  cbn [hd0 hd Z.eqb Pos.eqb]. change (adv 1 (40 :: b1 ++ t ++ b2 ++ 41 :: x)) with (b1 ++ t ++ b2 ++ 41 :: x).
  rewrite (H b1 (b2 ++ 41 :: x) (41 :: x)); [|exact T1| |lens].
  2:{ apply closing_stop; [exact T2|]. unfold closing. cbn. tauto. }
  destruct (N eq_refl) as [N1 N2]. destruct pre as [[]|]; try congruence; reflexivity.
Qed.
Lemma core_vector : forall x t, (forall r, other KVector (91 :: t ++ r) = Ok (x, r)) -> P_core (COther KVector x) SContainer (91 :: t).
Proof.
  intros v t H. split; [eexists _, _; split; [reflexivity | right; cbn; tauto]|]. intros x _ _.
  split; [reflexivity|]. split; [reflexivity|]. intros pre f _ L. destruct f as [|f]; [lia|]. rewrite p_core_eq.
  cbn [app hd0 hd Z.eqb Pos.eqb]. assert (KW : is_keyword (91 :: t ++ x) = Ok None) by reflexivity. rewrite KW. cbn [rbind].
  rewrite H. reflexivity.
Qed.
Lemma core_object : forall x t, (forall r, other KObject (123 :: t ++ r) = Ok (x, r)) -> P_core (COther KObject x) SContainer (123 :: t).
Proof.
  intros v t H. split; [eexists _, _; split; [reflexivity | right; cbn; tauto]|]. intros x _ _.
  split; [reflexivity|]. split; [reflexivity|]. intros pre f _ L. destruct f as [|f]; [lia|]. rewrite p_core_eq.
  cbn [app hd0 hd Z.eqb Pos.eqb]. assert (KW : is_keyword (123 :: t ++ x) = Ok None) by reflexivity. rewrite KW. cbn [rbind].
  rewrite H. reflexivity.
Qed.

Lemma keyword_here : forall k x, In (hd 0 x) special -> is_keyword (kw_spelling k ++ x) = Ok (Some k).
Proof. intros k x S. destruct (is_keyword_spec (kw_spelling k ++ x)) as (o & -> & H). f_equal. apply H. exists x. auto. Qed.
Lemma core_new : forall v t, In (hd 0 t) [32; 9; 10; 13] -> (forall r, other KNew (bytes "new" ++ t ++ r) = Ok (v, r)) -> P_core (COther KNew v) SNew (bytes "new" ++ t).
Proof.
  intros v t S H. split; [exists 110, (bytes "ew" ++ t); split; [reflexivity | left; reflexivity]|]. intros x _ _. rewrite <- app_assoc.
  assert (KW : is_keyword (bytes "new" ++ t ++ x) = Ok (Some KwNew)).
  { apply (keyword_here KwNew). destruct t as [|c t]; [cbn in S; intuition discriminate|]. cbn in S |- *. intuition lia. }
  split; [apply pre_none; [left; reflexivity|]; intros (d & r & Q & _); discriminate|]. split; [unfold ends_here; rewrite KW; reflexivity|].
  intros pre f _ L. destruct f as [|f]; [lia|]. rewrite p_core_eq. change (hd0 (bytes "new" ++ t ++ x)) with 110. cbn [Z.eqb Pos.eqb]. rewrite KW. cbn [rbind].
  rewrite H. reflexivity.
Qed.
Lemma core_function : forall v b t, trivia b -> In (hd 0 (b ++ [40])) [32; 9; 10; 13; 40] -> (forall r, other KFunction (bytes "function" ++ b ++ 40 :: t ++ r) = Ok (v, r)) ->
  P_core (COther KFunction v) SContainer (bytes "function" ++ b ++ 40 :: t).
Proof.
  intros v b t B S H. split; [eexists 102, _; split; [reflexivity | left; reflexivity]|]. intros x _ _. rewrite <- !app_assoc. cbn [app].
  assert (KW : is_keyword (bytes "function" ++ b ++ 40 :: t ++ x) = Ok (Some KwFunction)).
  { apply (keyword_here KwFunction). destruct b as [|c b]; cbn in S |- *; intuition lia. }
  split; [apply pre_none; [left; reflexivity|]; intros (d & r & Q & _); discriminate|]. split.
  - unfold ends_here. rewrite KW. cbn [rbind is_anonymous]. change (adv 8 (bytes "function" ++ b ++ 40 :: t ++ x)) with (b ++ 40 :: t ++ x).
    rewrite (blanks_solid b (40 :: t ++ x) B) by (apply solid_first; cbn; lia). reflexivity.
  - intros pre f _ L. destruct f as [|f]; [lia|]. rewrite p_core_eq. change (hd0 (bytes "function" ++ b ++ 40 :: t ++ x)) with 102. cbn [Z.eqb Pos.eqb]. rewrite KW. cbn [rbind].
    rewrite H. reflexivity.
Qed.

(** ** Accesses *)
Lemma name_loop_exact : forall w x, all is_alnum_ w -> ends_token x -> name_loop (w ++ x) = Ok (w, x).
Proof.
  induction w as [|c w IH]; intros x A E; cbn [app].
  - destruct x as [|c x]; [reflexivity|]. cbn [name_loop]. destruct (end_spec0 (c :: x)) as (b & -> & B). rewrite (proj2 B E). reflexivity.
  - inversion A; subst. cbn [name_loop]. destruct (end_spec0 (c :: w ++ x)) as (b & -> & B). destruct b.
    + exfalso. assert (K := ends_not_alnum _ (proj1 B eq_refl)). cbn in K. congruence.
    + cbn [rbind]. rewrite IH by auto. reflexivity.
Qed.
Lemma acc_dot : forall w b, trivia b -> name w -> P_acc (PDot w) (46 :: b ++ w).
Proof.
  intros w b T N. split; [cbn; tauto|]. split; [reflexivity|]. intros x f [E _] _. unfold acc_step.
  assert (CK := name_check w N). destruct N as (W & K & _).
  cbn [app hd0 hd Z.eqb Pos.eqb]. rewrite <- app_assoc. change (adv 1 (46 :: b ++ w ++ x)) with (b ++ w ++ x).
  rewrite blanks_solid by (auto; apply opens_solid, core_opnd, word_opens, W). cbn [rbind]. unfold accessor_name.
  rewrite name_loop_exact by (auto; apply word_all, W). cbn [rbind fst snd]. rewrite CK. cbn [rbind].
  destruct (list_eqb w (bytes "this")) eqn:Q; [apply eqb_list in Q; exfalso; apply (K KwThis); exact Q | reflexivity].
Qed.
Lemma acc_index : forall e b1 b2 t, trivia b1 -> trivia b2 -> P_expr e t -> P_acc (PIdx (PSome e)) (91 :: b1 ++ t ++ b2 ++ [93]).
Proof.
  intros e b1 b2 t T1 T2 [O H]. split; [cbn; tauto|]. split; [exact I|]. intros x f _ L. unfold acc_step.
  assert (EQ : (91 :: b1 ++ t ++ b2 ++ [93]) ++ x = 91 :: b1 ++ t ++ b2 ++ 93 :: x) by (cbn [app]; repeat rewrite <- app_assoc; reflexivity).
  rewrite EQ. cbn [hd0 hd Z.eqb Pos.eqb]. change (adv 1 (91 :: b1 ++ t ++ b2 ++ 93 :: x)) with (b1 ++ t ++ b2 ++ 93 :: x).
  rewrite (H b1 (b2 ++ 93 :: x) (93 :: x)); [|exact T1| |lens].
  2:{ apply closing_stop; [exact T2|]. unfold closing. cbn. tauto. }
  reflexivity.
Qed.
Lemma acc_call : forall g b t, trivia b -> P_args g t -> P_acc (PCall g) (40 :: b ++ t ++ [41]).
Proof.
  intros g b t T [O H]. split; [cbn; tauto|]. split; [exact I|]. intros x f _ L. unfold acc_step.
  assert (EQ : (40 :: b ++ t ++ [41]) ++ x = 40 :: b ++ t ++ 41 :: x) by (cbn [app]; repeat rewrite <- app_assoc; reflexivity).
  rewrite EQ. cbn [hd0 hd Z.eqb Pos.eqb]. change (adv 1 (40 :: b ++ t ++ 41 :: x)) with (b ++ t ++ 41 :: x).
  rewrite blanks_solid; [|exact T|].
  2:{ destruct O as [->|O]; [apply solid_first; cbn; intuition lia | apply opens_solid, O]. }
  cbn [rbind]. rewrite (H (41 :: x) f eq_refl) by lens. reflexivity.
Qed.
Lemma accs_case : forall a acs b t ta, trivia b -> P_acc a t -> P_accs acs ta -> P_accs (ACons a acs) (b ++ t ++ ta).
Proof.
  intros a acs b t ta T (I & D & H) HA. right. exists b, (t ++ ta). destruct t as [|c t]; [cbn in I; lia|].
  split; [exact T|]. split; [reflexivity|]. split; [exact I|]. split; [destruct a; cbn; try tauto|]. split; [discriminate|].
  intros x f R L. rewrite <- app_assoc. destruct f as [|f]; [lia|]. rewrite p_accs_eq.
  rewrite H; [|apply (after_accs acs); [exact HA | apply R] | lens]. cbn [rbind].
  destruct (accs_acc acs ta x HA R) as [[-> ->]|(u & B & PU & LU & FD & HF)].
  - cbn [app]. destruct R as [_ (u & B & PU)]. rewrite B. cbn [rbind]. rewrite PU. reflexivity.
  - rewrite B. cbn [rbind]. rewrite PU. rewrite HF by lens. reflexivity.
Qed.

(** ** Arguments *)
Lemma args_nil : P_args GNil [].
Proof. split; [auto|]. intros x f E L. destruct f as [|f]; [lia|]. rewrite p_args_eq. cbn [app]. unfold hd0. rewrite E. reflexivity. Qed.
Lemma more_stop : forall b g t2 x, trivia b -> P_more g t2 -> hd 0 x = 41 -> sub_stop (b ++ t2 ++ x) (t2 ++ x).
Proof.
  intros b g t2 x T [[->|E] _] X; apply closing_stop; auto; unfold closing.
  - cbn [app]. rewrite X. cbn. tauto.
  - destruct t2 as [|c t2]; [discriminate|]. cbn in E. subst. cbn. tauto.
Qed.
Lemma opens_hd : forall t x, opens opnd_first t -> hd0 (t ++ x) =? 41 = false.
Proof. intros t x (c & t' & -> & H). apply opnd_range in H. cbn. apply Z.eqb_neq. lia. Qed.
Lemma args_cons : forall e g t b t2, P_expr e t -> trivia b -> P_more g t2 -> P_args (GCons e g) (t ++ b ++ t2).
Proof.
  intros e g t b t2 [O H] T M. split.
  { right. destruct O as (c & t' & -> & K). eexists _, _. split; [reflexivity | exact K]. }
  intros x f X L. destruct f as [|f]; [lia|]. rewrite p_args_eq. repeat rewrite <- app_assoc.
  rewrite opens_hd by exact O. cbn [rbind negb andb].
  change (t ++ b ++ t2 ++ x) with ([] ++ t ++ b ++ t2 ++ x).
  rewrite (H [] (b ++ t2 ++ x) (t2 ++ x) f); [|constructor | apply (more_stop b g); auto | lens].
  cbn [rbind fst snd]. destruct M as [M0 M]. rewrite M; [reflexivity | exact X|].
  assert (1 <= len t)%nat by apply (opens_len _ _ O). lens.
Qed.
Lemma more_nil : P_more GNil [].
Proof. split; [auto|]. intros x f E L. destruct f as [|f]; [lia|]. rewrite p_args_eq. cbn [app]. unfold hd0. rewrite E. reflexivity. Qed.
Lemma more_comma : forall b, trivia b -> P_more GNil (44 :: b).
Proof.
  intros b T. split; [right; reflexivity|]. intros x f E L. destruct f as [|f]; [lia|]. rewrite p_args_eq. cbn [app hd0 hd Z.eqb Pos.eqb].
  change (adv 1 (44 :: b ++ x)) with (b ++ x). rewrite blanks_solid by (auto; apply solid_hd; rewrite E; cbn; intuition lia).
  cbn [rbind negb andb]. unfold hd0. rewrite E. reflexivity.
Qed.
Lemma more_cons : forall e g b1 t b2 t2, trivia b1 -> P_expr e t -> trivia b2 -> P_more g t2 ->
  P_more (GCons e g) (44 :: b1 ++ t ++ b2 ++ t2).
Proof.
  intros e g b1 t b2 t2 T1 [O H] T2 M. split; [right; reflexivity|]. intros x f X L. destruct f as [|f]; [lia|]. rewrite p_args_eq.
  assert (EQ : (44 :: b1 ++ t ++ b2 ++ t2) ++ x = 44 :: b1 ++ t ++ b2 ++ t2 ++ x) by (cbn [app]; repeat rewrite <- app_assoc; reflexivity).
  rewrite EQ. cbn [hd0 hd Z.eqb Pos.eqb]. change (adv 1 (44 :: b1 ++ t ++ b2 ++ t2 ++ x)) with (b1 ++ t ++ b2 ++ t2 ++ x).
  rewrite blanks_solid by (auto; apply opens_solid, O). cbn [rbind negb andb].
  rewrite opens_hd by exact O.
  change (t ++ b2 ++ t2 ++ x) with ([] ++ t ++ b2 ++ t2 ++ x).
  rewrite (H [] (b2 ++ t2 ++ x) (t2 ++ x) f); [|constructor | apply (more_stop b2 g); auto | lens].
  cbn [rbind fst snd]. destruct M as [M0 M]. rewrite M; [reflexivity | exact X | lens].
Qed.

(** ** All together *)
Notation written := (written other kind known is_type makes).
Theorem written_read :
  (forall e t, written e t -> P_expr e t) /\
  (forall o t, w_ops other kind known is_type makes o t -> P_ops o t) /\
  (forall o t, w_tern other kind known is_type makes o t -> P_tern o t) /\
  (forall o t, w_opnd other kind known is_type makes o t -> P_opnd o t) /\
  (forall c s t, w_core other kind known is_type makes c s t -> P_core c s t) /\
  (forall o t, w_accs other kind known is_type makes o t -> P_accs o t) /\
  (forall o t, w_acc other kind known is_type makes o t -> P_acc o t) /\
  (forall o t, w_args other kind known is_type makes o t -> P_args o t) /\
  (forall o t, w_more other kind known is_type makes o t -> P_more o t).
Proof.
  apply (written_ind_all other kind known is_type makes
    (fun e t _ => P_expr e t) (fun o t _ => P_ops o t) (fun o t _ => P_tern o t) (fun o t _ => P_opnd o t)
    (fun c s t _ => P_core c s t) (fun o t _ => P_accs o t) (fun o t _ => P_acc o t) (fun o t _ => P_args o t) (fun o t _ => P_more o t)).
  - intros; apply expr_case; auto.
  - apply ops_nil.
  - intros; apply ops_cons; auto.
  - left; auto.
  - intros. right. exists e1, e2, b1, b2, b3, b4, t1, t2. auto 10.
  - intros pre p c s t acs ta post P WC HC WA HA F TY AC. apply opnd_case with (s := s); auto.
    + intros K. destruct AC as [A|[A|[[A _]|[(w & _ & A & _)|(e & -> & _)]]]]; auto; try (destruct K; subst; discriminate).
      inversion WC; subst. destruct K; discriminate.
    + destruct AC as [A|[A|[A|[A|(e & -> & M & D)]]]]; auto. do 4 right. exists e. repeat split; auto. inversion WC; reflexivity.
  - intros. eapply core_number; eauto.
  - intros. eapply core_number; eauto.
  - intros. apply core_string; auto.
  - intros. apply core_truth; auto.
  - intros. apply core_nothing; auto.
  - intros. apply core_name; auto.
  - intros. apply core_paren; auto.
  - intros. apply core_vector; auto.
  - intros. apply core_object; auto.
  - intros. apply core_new; auto.
  - intros. apply core_function; auto.
  - left; auto.
  - intros. apply accs_case; auto.
  - intros. apply acc_call; auto.
  - intros. apply acc_index; auto.
  - intros. apply acc_dot; auto.
  - apply args_nil.
  - intros. apply args_cons; auto.
  - apply more_nil.
  - intros. apply more_comma; auto.
  - intros. apply more_cons; auto.
Qed.

Theorem parse_written : forall e t b r u, written e t -> trivia b -> ends_at r u ->
  parse other kind known is_type makes (b ++ t ++ r) = Ok (PSome e, u).
Proof.
  intros e t b r u W T E. destruct (proj1 written_read e t W) as [_ H]. apply H; [exact T | apply ends_at_stop, E|].
  unfold fuel_for. rewrite !app_length. lia.
Qed.
End Main.
