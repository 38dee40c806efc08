(** What has been read is what stands there. *)
From Coq Require Import List ZArith Bool Lia String.
From Verif Require Import Base StringModel LexModel LexSpec LexProofs LexOps LexTok LexNum ParseModel ParseSpec ParseLex ParseProofs ParseMain.
Import ListNotations.
Local Open Scope Z_scope.

Local Arguments ends_here : simpl never.
Local Arguments blanks : simpl never.
Local Arguments is_operator : simpl never.
Local Arguments is_keyword : simpl never.
Local Arguments is_pre_operation : simpl never.
Local Arguments is_post_operation : simpl never.
Local Arguments symbol_token : simpl never.
Local Arguments Nat.mul : simpl never.
Local Arguments Nat.add : simpl never.
Local Arguments adv : simpl never.
Notation len := List.length.

Lemma bind_ok : forall {A B} (x : res A) (f : A -> res B) y, rbind x f = Ok y -> exists a, x = Ok a /\ f a = Ok y.
Proof. intros A B [a| | |] f y H; try discriminate. eauto. Qed.
Lemma nlc_suffix : forall a s, no_lone_cr (a ++ s) -> no_lone_cr s.
Proof. intros a s H x b ->. apply (H (a ++ x) b). rewrite app_assoc. reflexivity. Qed.

(** ** The scanning functions *)
Lemma blanks_sound : forall s u, no_lone_cr s -> blanks s = Ok u -> exists b, s = b ++ u /\ skipped b u.
Proof.
  intros s u N H. unfold blanks in H. apply bind_ok in H. destruct H as ([v l] & E & H). cbn in H. inversion H; subst v.
  pose proof (blanks_main (Datatypes.S (len s)) s 0 ltac:(lia) N) as B. rewrite E in B.
  destruct B as (b & -> & _ & _ & T). exists b. split; [reflexivity|]. destruct T as [T|(b1 & b2 & -> & T & -> & O)]; [left; exact T|].
  right. split; [reflexivity|]. exists b1, b2. auto.
Qed.
Lemma skipped_trivia : forall b u, skipped b u -> u <> [] -> trivia b.
Proof. intros b u [T|[-> _]] N; [exact T | congruence]. Qed.
Lemma operator_sound : forall s o, is_operator s = Ok (Some o) -> s = spelling o ++ adv (len (spelling o)) s.
Proof.
  intros s o H. destruct (is_operator_spec s) as (r & E & S). rewrite H in E. inversion E; subst r.
  assert (W : starts_with s (spelling o)).
  { destruct o; try (destruct S as [_ (_ & S & _)]; exact S); destruct S as (c & r & -> & _); exists (c :: r); reflexivity. }
  destruct W as [r ->]. rewrite adv_app. reflexivity.
Qed.
Lemma first_of_ok : forall {A} (l : list (A * (ptr -> res bool))) s a, first_of l s = Ok (Some a) -> exists f, In (a, f) l /\ f s = Ok true.
Proof.
  induction l as [|[b f] l IH]; intros s a H; [discriminate|]. cbn in H. apply bind_ok in H. destruct H as (x & E & H). destruct x.
  - inversion H; subst. exists f. split; [left; reflexivity | exact E].
  - destruct (IH s a H) as (g & I & G). exists g. split; [right; exact I | exact G].
Qed.
Lemma all_of_hd : forall c l s, all_of (is 0 c :: l) s = Ok true -> c <> 0 -> exists r, s = c :: r.
Proof.
  intros c l s H N. cbn [all_of is] in H. rewrite peek0 in H. cbn [rbind] in H. destruct (Z.eqb_spec (hd0 s) c) as [E|E]; [|discriminate].
  destruct s as [|d s]; cbn in E; [congruence|]. subst. eauto.
Qed.
Lemma two_ok : forall a b s, all_of [is 0 a; is 1 b] s = Ok true -> a <> 0 -> b <> 0 -> exists r, s = a :: b :: r.
Proof.
  intros a b s H N1 N2. destruct s as [|c s]; [rewrite two_nil in H; destruct (Z.eqb_spec 0 a); [congruence | discriminate]|].
  rewrite two_cons in H. inversion H as [E]. apply andb_true_iff in E. rewrite !Z.eqb_eq in E. destruct E as [-> E].
  destruct s as [|d s]; cbn in E; [congruence|]. subst. eauto.
Qed.
Lemma pre_sound : forall s q, is_pre_operation s = Ok (Some q) -> q <> PreInvalid -> s = pre_spelling q ++ adv (len (pre_spelling q)) s.
Proof.
  intros s q H N. unfold is_pre_operation in H. apply first_of_ok in H. destruct H as (f & I & F).
  assert (W : exists r, s = pre_spelling q ++ r).
  { cbn [In] in I. repeat (destruct I as [I|I]; [inversion I; subst; clear I|]); try congruence; try contradiction.
    - apply two_ok in F; [|lia|lia]. destruct F as [r ->]. exists r. reflexivity.
    - apply two_ok in F; [|lia|lia]. destruct F as [r ->]. exists r. reflexivity.
    - destruct (all_of_hd 33 [isnt 1 61] s F ltac:(lia)) as [r ->]. exists r. reflexivity.
    - destruct (word_op_spec (bytes "typeof") s) as (b & E & B); [cbn; intuition lia|]. rewrite E in F. inversion F; subst.
      destruct (proj1 B eq_refl) as (c & r & -> & _). exists (c :: r). reflexivity.
    - destruct (all_of_hd 43 [isnt 1 43] s F ltac:(lia)) as [r ->]. exists r. reflexivity.
    - destruct (all_of_hd 45 [isnt 1 45] s F ltac:(lia)) as [r ->]. exists r. reflexivity.
    - destruct (all_of_hd 126 [] s F ltac:(lia)) as [r ->]. exists r. reflexivity. }
  destruct W as [r ->]. rewrite adv_app. reflexivity.
Qed.
Lemma post_sound : forall s q, is_post_operation s = Ok (Some q) -> q <> PostInvalid ->
  s = postfix (Some (match q with PostInc => true | _ => false end)) ++ adv 2 s.
Proof.
  intros s q H N. unfold is_post_operation in H. apply first_of_ok in H. destruct H as (f & I & F).
  cbn [In] in I. repeat (destruct I as [I|I]; [inversion I; subst; clear I|]); try congruence; try contradiction;
    (apply two_ok in F; [|lia|lia]; destruct F as [r ->]; reflexivity).
Qed.
Lemma symbol_sound : forall s t r, symbol_token s = Ok (t, r) ->
  match t with
  | TLit (LText v) => s = v ++ r /\ numeral v
  | TLit (LChar z) => exists v, s = v ++ r /\ char_text z v
  | TStr v => s = 34 :: v ++ 34 :: r /\ string_body v
  | TWord w => s = w ++ r /\ w <> []
  end.
Proof.
  intros s t r H. unfold symbol_token in H. apply bind_ok in H. destruct H as (n & P & H). destruct n as [[l r']|].
  - inversion H; subst. destruct l as [z|v].
    + unfold parse_literal_number in P. apply bind_ok in P. destruct P as (k & _ & P). destruct k; [discriminate|].
      rewrite peek0 in P. cbn [rbind] in P. destruct (Z.eqb_spec (hd0 s) 39) as [E|E].
      * apply bind_ok in P. destruct P as ([v x] & C & P). cbn in P. inversion P; subst v x. clear P.
        destruct s as [|c s]; [discriminate E|]. cbn in E. subst c. change (adv 1 (39 :: s)) with s in C.
        unfold char_literal in C. rewrite peek0 in C. cbn [rbind] in C. apply bind_ok in C. destruct C as ([v s1] & C & Q).
        rewrite peek0 in Q. cbn [rbind] in Q. destruct (Z.eqb_spec (hd0 (adv 1 s1)) 39) as [E|E]; [|discriminate]. inversion Q; subst v r. clear Q.
        assert (S1 : forall x, s1 = x :: tl s1 -> s1 = x :: 39 :: adv 1 (adv 1 s1)).
        { intros x X. rewrite X in E |- *. change (adv 1 (x :: tl s1)) with (tl s1) in *. destruct (tl s1) as [|y w]; [discriminate E|]. cbn in E. subst. reflexivity. }
        destruct s as [|c s]; [discriminate C|]. cbn [hd0 hd] in C. destruct (Z.eqb_spec c 92) as [->|N].
        -- change (adv 1 (92 :: s)) with s in C. rewrite peek0 in C. cbn [rbind] in C.
           destruct s as [|d s]; [discriminate C|]. cbn [hd0 hd] in C.
           destruct (Z.eqb_spec d 110) as [->|]; [inversion C; subst; exists (39 :: 92 :: bytes "n'"); split; [|constructor]; cbn; do 2 f_equal; apply S1; reflexivity|].
           destruct (Z.eqb_spec d 114) as [->|]; [inversion C; subst; exists (39 :: 92 :: bytes "r'"); split; [|constructor]; cbn; do 2 f_equal; apply S1; reflexivity|].
           destruct (Z.eqb_spec d 116) as [->|]; [inversion C; subst; exists (39 :: 92 :: bytes "t'"); split; [|constructor]; cbn; do 2 f_equal; apply S1; reflexivity|].
           discriminate.
        -- destruct (Z.eqb_spec c 39); [discriminate|]. destruct (Z.eqb_spec c 0); [discriminate|]. inversion C; subst.
           exists [39; c; 39]. split; [|constructor; auto]. cbn. f_equal. apply S1. reflexivity.
      * exfalso. apply bind_ok in P. destruct P as (hx & _ & P). rewrite peek0 in P. cbn [rbind] in P.
        destruct (_ || _) in P; [|discriminate]. apply bind_ok in P. destruct P as ([n s2] & _ & P).
        apply bind_ok in P. destruct P as (e & _ & P). destruct e; inversion P.
    + apply parse_sound in P. destruct P as [-> N]. split; [reflexivity|]. unfold LexNum.number in N. unfold numeral. tauto.
  - rewrite peek0 in H. cbn [rbind] in H. destruct (hd0 s =? 34).
    + apply bind_ok in H. destruct H as ([v x] & S & H). inversion H; subst. cbn in *. apply string_literal_spec in S. exact S.
    + apply bind_ok in H. destruct H as ([w x] & S & H). inversion H; subst. cbn [fst snd] in *. destruct s as [|c s]; [discriminate S|].
      destruct (word_token_ok (c :: s) ltac:(discriminate)) as (w' & r' & E & -> & NW & _). rewrite S in E. inversion E; subst. auto.
Qed.
Lemma name_loop_sound : forall s w r, name_loop s = Ok (w, r) -> s = w ++ r.
Proof.
  induction s as [|c s IH]; intros w r H; cbn [name_loop] in H; [inversion H; reflexivity|].
  apply bind_ok in H. destruct H as (e & _ & H). destruct e; [inversion H; reflexivity|].
  apply bind_ok in H. destruct H as ([w' r'] & E & H). inversion H; subst. cbn. f_equal. apply IH. exact E.
Qed.
Lemma adv1 : forall s, s <> [] -> s = hd 0 s :: adv 1 s.
Proof. intros [|c s] H; [congruence | reflexivity]. Qed.
Lemma adv1_hd : forall s c, hd0 s = c -> c <> 0 -> s = c :: adv 1 s.
Proof. intros [|d s] c H N; [cbn in H; congruence|]. cbn in H. subst. reflexivity. Qed.
Lemma trivia_app : forall a b, trivia a -> trivia b -> trivia (a ++ b).
Proof.
  intros a b A B. induction A as [|c t H A IH|t A IH|x t H A IH|x t H A IH]; cbn [app]; auto.
  - constructor; auto.
  - apply tr_crlf; auto.
  - replace ((bytes "//" ++ x ++ 10 :: t) ++ b) with (bytes "//" ++ x ++ 10 :: t ++ b) by (repeat (rewrite <- app_assoc; cbn [app]); reflexivity).
    apply tr_line; auto.
  - replace ((bytes "/*" ++ x ++ bytes "*/" ++ t) ++ b) with (bytes "/*" ++ x ++ bytes "*/" ++ t ++ b) by (repeat (rewrite <- app_assoc; cbn [app]); reflexivity).
    apply tr_block; auto.
Qed.

Section Sound.
Variable other : okind -> ptr -> res (Z * ptr).
Variable kind : literal -> option bool.
Variable known is_type : list Z -> bool.
Variable makes : pexpr -> bool.
Notation p_sub := (p_sub other kind known is_type makes).
Notation p_toks := (p_toks other kind known is_type makes).
Notation p_opnd := (p_opnd other kind known is_type makes).
Notation p_core := (p_core other kind known is_type makes).
Notation p_accs := (p_accs other kind known is_type makes).
Notation p_args := (p_args other kind known is_type makes).
Notation spelled := (spelled other).
Notation s_opnd := (s_opnd other).
Notation s_ops := (s_ops other).
Notation s_tern := (s_tern other).
Notation s_core := (s_core other).
Notation s_accs := (s_accs other).
Notation s_acc := (s_acc other).
Notation s_args := (s_args other).
Notation s_more := (s_more other).
(** What the other parts read stands there, too. *)
Hypothesis other_sound : forall k s x r, other k s = Ok (x, r) -> exists t, s = t ++ r.

Definition S_sub f := forall s po u, no_lone_cr s -> p_sub f s = Ok (po, u) ->
  match po with
  | PNone => exists b, s = b ++ u /\ skipped b u
  | PSome e => exists b t r, s = b ++ t ++ r ++ u /\ trivia b /\ spelled e t /\ skipped r u
  end.
Definition S_toks f := forall s h tl u, no_lone_cr s -> p_toks f s = Ok (h, tl, u) ->
  exists t1 t2 r, s = t1 ++ t2 ++ r ++ u /\ s_opnd h t1 /\ s_ops tl t2 /\ skipped r u.
Definition S_opnd f := forall s a u, no_lone_cr s -> p_opnd f s = Ok (a, u) -> exists t, s = t ++ u /\ s_opnd a t.
Definition S_core f := forall pre s c ty u, no_lone_cr s -> p_core f pre s = Ok (c, ty, u) -> s <> [] /\ exists t, s = t ++ u /\ s_core c t.
Definition S_accs f := forall s acs u, no_lone_cr s -> p_accs f s = Ok (acs, u) -> In (hd0 s) [46; 91; 40] ->
  exists a acs' t ta, acs = ACons a acs' /\ s = (t ++ ta) ++ u /\ s_acc a t /\ s_accs acs' ta.
Definition S_args f := forall first s g u, no_lone_cr s -> p_args f first s = Ok (g, u) ->
  hd0 u = 41 /\ exists t, s = t ++ u /\ if first : bool then s_args g t else s_more g t.

Lemma sound_sub : forall f, S_sub f -> S_toks f -> S_sub (Datatypes.S f).
Proof.
  intros f IS IT s po u N H. rewrite p_sub_eq in H. apply bind_ok in H. destruct H as (u0 & B & H).
  destruct (blanks_sound s u0 N B) as (b & -> & SK). destruct (existsb _ _) in H; [discriminate|].
  apply bind_ok in H. destruct H as (e & _ & H). destruct e.
  { inversion H; subst. exists b. auto. }
  apply bind_ok in H. destruct H as ([[h tl] v] & T & H). assert (N0 := nlc_suffix _ _ N).
  assert (NE : u0 <> []).
  { intros ->. destruct f; [discriminate T|]. rewrite p_toks_eq in T. destruct f; [discriminate T|]. rewrite p_opnd_eq in T.
    cbn in T. destruct f; discriminate T. }
  assert (TB := skipped_trivia _ _ SK NE).
  destruct (IT _ _ _ _ N0 T) as (t1 & t2 & r & -> & P1 & P2 & SR). destruct (assign_ok h tl); [|discriminate]. cbn [negb] in H.
  destruct (Z.eqb_spec (hd0 v) 63) as [E|E].
  - apply bind_ok in H. destruct H as ([p1 u1] & H1 & H). cbn [fst snd] in H. destruct p1 as [|e1]; [discriminate|].
    destruct (Z.eqb_spec (hd0 u1) 58) as [E1|E1]; [|discriminate]. cbn [negb] in H. apply bind_ok in H. destruct H as ([p2 u2] & H2 & H). cbn [fst snd] in H.
    inversion H; subst po u2. clear H. assert (EV := adv1_hd v 63 E ltac:(lia)). assert (NV : v <> []) by (intros ->; discriminate E).
    apply (skipped_trivia _ _ SR) in NV. clear SR.
    assert (N1 : no_lone_cr (adv 1 v)). { do 3 apply nlc_suffix in N0. rewrite EV in N0. apply (nlc_suffix [63]) in N0. exact N0. }
    destruct (IS _ _ _ N1 H1) as (b2 & s1 & b3 & X1 & TB2 & SP1 & SK3).
    assert (EV1 := adv1_hd u1 58 E1 ltac:(lia)). assert (NV1 : u1 <> []) by (intros ->; discriminate E1). apply (skipped_trivia _ _ SK3) in NV1. clear SK3.
    assert (N2 : no_lone_cr (adv 1 u1)). { rewrite X1 in N1. do 3 apply nlc_suffix in N1. rewrite EV1 in N1. apply (nlc_suffix [58]) in N1. exact N1. }
    pose proof (IS _ _ _ N2 H2) as S2. destruct p2 as [|e2].
    + destruct S2 as (b4 & X2 & SK4). exists b, (t1 ++ t2 ++ r ++ 63 :: b2 ++ s1 ++ b3 ++ [58]), b4.
      split; [|split; [exact TB|split; [apply s_expr; auto; apply s_lost; auto | exact SK4]]].
      rewrite EV, X1, EV1, X2. repeat (rewrite <- app_assoc; cbn [app]). reflexivity.
    + destruct S2 as (b4 & s2 & r5 & X2 & TB4 & SP2 & SK5). exists b, (t1 ++ t2 ++ r ++ 63 :: b2 ++ s1 ++ b3 ++ 58 :: b4 ++ s2), r5.
      split; [|split; [exact TB|split; [apply s_expr; auto; apply s_some; auto | exact SK5]]].
      rewrite EV, X1, EV1, X2. repeat (rewrite <- app_assoc; cbn [app]). reflexivity.
  - inversion H; subst. exists b, (t1 ++ t2 ++ []), r. split; [rewrite app_nil_r, <- !app_assoc; reflexivity|].
    split; [exact TB|]. split; [apply s_expr; auto; constructor | exact SR].
Qed.
Lemma sound_toks : forall f, S_toks f -> S_opnd f -> S_toks (Datatypes.S f).
Proof.
  intros f IT IO s h tl u N H. rewrite p_toks_eq in H. apply bind_ok in H. destruct H as ([a aux] & HA & H).
  destruct (IO _ _ _ N HA) as (t & -> & PA). assert (N1 := nlc_suffix _ _ N).
  apply bind_ok in H. destruct H as (v & B & H). destruct (blanks_sound _ _ N1 B) as (b & -> & SK).
  apply bind_ok in H. destruct H as (o & EO & H). apply bind_ok in H. destruct H as (e & _ & H).
  assert (STOP : Ok (a, PNil, v) = Ok (h, tl, u) -> exists t1 t2 r, t ++ b ++ v = t1 ++ t2 ++ r ++ u /\ s_opnd h t1 /\ s_ops tl t2 /\ skipped r u).
  { intros Q. inversion Q; subst. exists t, [], b. repeat split; auto. constructor. }
  destruct o as [o|].
  2:{ destruct (e || newline_in (b ++ v) v); [|discriminate]. apply STOP. exact H. }
  assert (GO : o <> OpTernaryIf -> o <> OpTernaryElse -> (do v0 <- blanks (adv (len (spelling o)) v);
               do r2 <- p_toks f v0; let '(b, tl', w) := r2 in Ok (a, PCons o b tl', w)) = Ok (h, tl, u) ->
               exists t1 t2 r, t ++ b ++ v = t1 ++ t2 ++ r ++ u /\ s_opnd h t1 /\ s_ops tl t2 /\ skipped r u).
  { intros O1 O2 Q. assert (EV := operator_sound _ _ EO). assert (NV : v <> []) by (intros ->; discriminate EO).
    apply (skipped_trivia _ _ SK) in NV. apply nlc_suffix in N1. rewrite EV in N1. apply nlc_suffix in N1.
    apply bind_ok in Q. destruct Q as (v0 & B0 & Q). destruct (blanks_sound _ _ N1 B0) as (b2 & X2 & SK2).
    apply bind_ok in Q. destruct Q as ([[a2 tl'] w] & H2 & Q). inversion Q; subst h tl w. clear Q.
    rewrite X2 in N1. apply nlc_suffix in N1.
    assert (NE : v0 <> []).
    { intros ->. destruct f; [discriminate H2|]. rewrite p_toks_eq in H2. destruct f; [discriminate H2|]. rewrite p_opnd_eq in H2.
      cbn in H2. destruct f; discriminate H2. }
    destruct (IT _ _ _ _ N1 H2) as (t1 & t2 & r & X3 & P1 & P2 & SR).
    exists t, (b ++ spelling o ++ b2 ++ t1 ++ t2), r. split; [rewrite EV, X2, X3; repeat rewrite <- app_assoc; reflexivity|].
    split; [exact PA|]. split; [|exact SR]. constructor; auto. apply (skipped_trivia _ _ SK2 NE). }
  destruct o; try (apply STOP; exact H); (destruct e; [apply STOP; exact H | apply GO; [discriminate | discriminate | exact H]]).
Qed.
Lemma sound_core : forall f, S_sub f -> S_core (Datatypes.S f).
Proof.
  intros f IS pre s c ty u N H. rewrite p_core_eq in H. split.
  { intros ->. discriminate H. }
  destruct (Z.eqb_spec (hd0 s) 40) as [E|E].
  - assert (EV := adv1_hd s 40 E ltac:(lia)).
    assert (Q : (do r <- p_sub f (adv 1 s);
            match fst r with
            | PNone => Thr
            | PSome e => if hd0 (snd r) =? 41 then Ok (CParen e, TyParen, adv 1 (snd r)) else Thr
            end) = Ok (c, ty, u)) by (destruct pre as [[]|]; try exact H; discriminate).
    clear H. apply bind_ok in Q. destruct Q as ([po v] & H1 & Q). cbn [fst snd] in Q. destruct po as [|e]; [discriminate|].
    destruct (Z.eqb_spec (hd0 v) 41) as [E1|E1]; [|discriminate]. inversion Q; subst c ty u. clear Q.
    rewrite EV in N. apply (nlc_suffix [40]) in N. destruct (IS _ _ _ N H1) as (b & t & r & X & TB & SP & SK).
    assert (EV1 := adv1_hd v 41 E1 ltac:(lia)). assert (NV : v <> []) by (intros ->; discriminate E1). apply (skipped_trivia _ _ SK) in NV.
    exists (40 :: b ++ t ++ r ++ [41]). split; [|constructor; auto]. rewrite EV, X, EV1 at 1. cbn [app]. repeat rewrite <- app_assoc. reflexivity.
  - apply bind_ok in H. destruct H as (k & _ & H).
    assert (OT : forall kk w, (do x <- other kk s; Ok (COther kk (fst x), w, snd x)) = Ok (c, ty, u) -> exists t, s = t ++ u /\ s_core c t).
    { intros kk w Q. apply bind_ok in Q. destruct Q as ([x r] & X & Q). cbn [fst snd] in Q. inversion Q; subst.
      destruct (other_sound _ _ _ _ X) as [t ->]. exists t. split; [reflexivity|]. apply (s_other other kk x t u). exact X. }
    destruct (hd0 s =? 91); [apply (OT _ _ H)|]. destruct (hd0 s =? 123); [apply (OT _ _ H)|].
    assert (G : (do r <- symbol_token s;
              match fst r with
              | TLit l =>
                  match kind l with
                  | Some true => Ok (CLit l, TyInt, snd r)
                  | Some false => Ok (CLit l, TyFloat, snd r)
                  | None => Thr
                  end
              | TStr v => Ok (CStr v, TyString, snd r)
              | TWord w => word_core other known w s (snd r)
              end) = Ok (c, ty, u) -> exists t, s = t ++ u /\ s_core c t).
    { clear H. intros H. apply bind_ok in H. destruct H as ([t r] & SY & H). apply symbol_sound in SY. cbn [fst snd] in H. destruct t as [l|v|w].
      - assert (Q : c = CLit l /\ u = r) by (destruct (kind l) as [[]|]; inversion H; auto). destruct Q as [-> ->]. destruct l as [z|v].
        + destruct SY as (v & -> & CT). exists v. split; [reflexivity | constructor; exact CT].
        + destruct SY as [-> NU]. exists v. split; [reflexivity | constructor; exact NU].
      - inversion H; subst. destruct SY as [-> SB]. exists (34 :: v ++ [34]). split; [cbn; rewrite <- app_assoc; reflexivity | constructor; exact SB].
      - destruct SY as [EQ NW]. assert (DONE : forall tt, Ok (CWord w, tt, r) = Ok (c, ty, u) -> exists t, s = t ++ u /\ s_core c t).
        { intros tt Q. inversion Q; subst. exists w. split; [reflexivity | constructor; exact NW]. }
        unfold word_core in H. destruct (_ || _) in H; [apply (DONE _ H)|]. destruct (is_bool w); [apply (DONE _ H)|].
        destruct (list_eqb w (bytes "this")); [apply (OT _ _ H)|]. destruct (list_eqb w (bytes "super")); [apply (OT _ _ H)|].
        apply bind_ok in H. destruct H as (ok & _ & H). destruct (negb ok || negb (known w)); [discriminate|].
        destruct (_ && _) in H; [apply (OT _ _ H) | apply (DONE _ H)]. }
    destruct k as [[]|]; try (apply (OT _ _ H)); apply (G H).
Qed.
Lemma sound_opnd : forall f, S_core f -> S_accs f -> S_opnd (Datatypes.S f).
Proof.
  intros f IC IA s a u N H. rewrite p_opnd_eq in H. apply bind_ok in H. destruct H as (pre & PR & H).
  apply bind_ok in H. destruct H as (s1 & S1 & H).
  assert (X : s = (match pre with None => [] | Some q => pre_spelling q end) ++ s1 /\ pre <> Some PreInvalid).
  { destruct pre as [q|]; [|inversion S1; subst; split; [reflexivity | discriminate]].
    destruct q; try discriminate; (split; [|discriminate]); apply pre_sound in PR; try discriminate; inversion S1; subst s1; exact PR. }
  destruct X as [X NI]. assert (N1 := N). rewrite X in N1. apply nlc_suffix in N1.
  apply bind_ok in H. destruct H as (s2 & B & H). destruct (blanks_sound _ _ N1 B) as (b & -> & SK). apply nlc_suffix in N1.
  apply bind_ok in H. destruct H as ([[c t] aux] & HC & H). destruct (IC _ _ _ _ _ N1 HC) as (NE & tc & X2 & PC).
  apply (skipped_trivia _ _ SK) in NE. clear SK. subst s2. apply nlc_suffix in N1.
  apply bind_ok in H. destruct H as (left & _ & H). apply bind_ok in H. destruct H as (test & B2 & H).
  destruct (blanks_sound _ _ N1 B2) as (b2 & X2 & SK2).
  apply bind_ok in H. destruct H as ([acs aux2] & HA & H).
  assert (ACS : exists ta, aux = ta ++ aux2 /\ s_accs acs ta).
  { destruct (punct test) eqn:PU; [|inversion HA; subst; exists []; split; [reflexivity | constructor]].
    destruct (access_ok is_type makes t c test); [|discriminate]. unfold punct in PU. apply existsb_In in PU.
    assert (NT : test <> []) by (intros ->; cbn in PU; intuition lia). apply (skipped_trivia _ _ SK2) in NT.
    rewrite X2 in N1. apply nlc_suffix in N1.
    destruct (IA _ _ _ N1 HA PU) as (a0 & acs' & t0 & ta & -> & -> & P1 & P2). exists (b2 ++ t0 ++ ta). split; [rewrite X2, <- !app_assoc; reflexivity|].
    constructor; auto. }
  destruct ACS as (ta & -> & PA). apply bind_ok in H. destruct H as (q & PQ & H). apply bind_ok in H. destruct H as ([post aux3] & HP & H).
  cbn [fst snd] in H. destruct (pre_ok is_type left t c); [|discriminate]. inversion H; subst a aux3. clear H.
  assert (PO : aux2 = postfix post ++ u).
  { destruct q as [[]|]; try (destruct (post_ok pre t); [|discriminate]); inversion HP; subst; try reflexivity;
      apply post_sound in PQ; try discriminate; exact PQ. }
  exists ((match pre with None => [] | Some q => pre_spelling q end) ++ b ++ tc ++ ta ++ postfix post). split.
  - rewrite X, PO. repeat rewrite <- app_assoc. reflexivity.
  - apply s_opd with (b := b); auto.
Qed.
Lemma sound_accs : forall f, S_sub f -> S_accs f -> S_args f -> S_accs (Datatypes.S f).
Proof.
  intros f IS IA IG s acs u N H PU. rewrite p_accs_eq in H. apply bind_ok in H. destruct H as ([a aux] & HA & H).
  assert (ACC : exists t, s = t ++ aux /\ s_acc a t).
  { unfold acc_step in HA. destruct (Z.eqb_spec (hd0 s) 40) as [E|E].
    - assert (EV := adv1_hd s 40 E ltac:(lia)). assert (N1 := N). rewrite EV in N1. apply (nlc_suffix [40]) in N1.
      apply bind_ok in HA. destruct HA as (b & B & HA). destruct (blanks_sound _ _ N1 B) as (bb & X & SK).
      apply bind_ok in HA. destruct HA as ([g v] & HG & HA). cbn [fst snd] in HA. inversion HA; subst a aux. clear HA.
      rewrite X in N1. apply nlc_suffix in N1. destruct (IG _ _ _ _ N1 HG) as (E1 & t & X1 & PG). cbn iota in PG.
      assert (EV1 := adv1_hd v 41 E1 ltac:(lia)).
      assert (NB : b <> []) by (intros ->; destruct t; [cbn in X1; subst v; discriminate E1 | discriminate X1]).
      apply (skipped_trivia _ _ SK) in NB. exists (40 :: bb ++ t ++ [41]). split; [|constructor; auto].
      rewrite EV, X, X1, EV1 at 1. cbn [app]. repeat rewrite <- app_assoc. reflexivity.
    - destruct (Z.eqb_spec (hd0 s) 91) as [E0|E0].
      + assert (EV := adv1_hd s 91 E0 ltac:(lia)). assert (N1 := N). rewrite EV in N1. apply (nlc_suffix [91]) in N1.
        apply bind_ok in HA. destruct HA as ([po v] & HS & HA). cbn [fst snd] in HA. destruct (Z.eqb_spec (hd0 v) 93) as [E1|E1]; [|discriminate].
        inversion HA; subst a aux. clear HA. assert (EV1 := adv1_hd v 93 E1 ltac:(lia)). assert (NV : v <> []) by (intros ->; discriminate E1).
        pose proof (IS _ _ _ N1 HS) as Q. destruct po as [|e].
        * destruct Q as (b & X & SK). apply (skipped_trivia _ _ SK) in NV. exists (91 :: b ++ [93]). split; [|constructor; auto].
          rewrite EV, X, EV1 at 1. cbn [app]. repeat rewrite <- app_assoc. reflexivity.
        * destruct Q as (b & t & r & X & TB & SP & SK). apply (skipped_trivia _ _ SK) in NV. exists (91 :: b ++ t ++ r ++ [93]). split; [|constructor; auto].
          rewrite EV, X, EV1 at 1. cbn [app]. repeat rewrite <- app_assoc. reflexivity.
      + assert (E1 : hd0 s = 46) by (cbn in PU; intuition congruence). assert (EV := adv1_hd s 46 E1 ltac:(lia)). assert (N1 := N). rewrite EV in N1. apply (nlc_suffix [46]) in N1.
        apply bind_ok in HA. destruct HA as (b & B & HA). destruct (blanks_sound _ _ N1 B) as (bb & X & SK).
        apply bind_ok in HA. destruct HA as ([w v] & HW & HA). cbn [fst snd] in HA. inversion HA; subst a aux. clear HA.
        unfold accessor_name in HW. apply bind_ok in HW. destruct HW as ([w' v'] & HL & HW). cbn [fst snd] in HW.
        apply bind_ok in HW. destruct HW as (ok & CK & HW). destruct ok; [|discriminate]. destruct (list_eqb w' (bytes "this")); [discriminate|]. cbn in HW. inversion HW; subst w' v'.
        apply name_loop_sound in HL.
        assert (AL : is_alpha_ (hd 0 w) = true).
        { unfold check_identifier_name in CK. apply bind_ok in CK. destruct CK as (k & _ & CK). destruct k; [discriminate|].
          apply bind_ok in CK. destruct CK as (o & _ & CK). destruct o; [discriminate|]. destruct (existsb _ _) in CK; [discriminate|].
          rewrite peek0 in CK. cbn [rbind] in CK. change (hd 0 w) with (hd0 w). congruence. }
        assert (NB : b <> []) by (intros ->; destruct w; [discriminate AL | discriminate HL]).
        apply (skipped_trivia _ _ SK) in NB. exists (46 :: bb ++ w). split; [|constructor; auto].
        rewrite EV, X, HL at 1. cbn [app]. rewrite <- app_assoc. reflexivity. }
  destruct ACC as (t & -> & PA). assert (N1 := nlc_suffix _ _ N). apply bind_ok in H. destruct H as (test & B & H).
  destruct (blanks_sound _ _ N1 B) as (bb & X & SK). destruct (punct test) eqn:PT.
  - apply bind_ok in H. destruct H as ([acs' v] & HR & H). cbn [fst snd] in H. inversion H; subst acs v. clear H.
    unfold punct in PT. apply existsb_In in PT. assert (NT : test <> []) by (intros ->; cbn in PT; intuition lia). apply (skipped_trivia _ _ SK) in NT.
    rewrite X in N1. apply nlc_suffix in N1. destruct (IA _ _ _ N1 HR PT) as (a0 & acs0 & t0 & ta & -> & X2 & P1 & P2).
    exists a, (ACons a0 acs0), t, (bb ++ t0 ++ ta). split; [reflexivity|]. split; [rewrite X, X2; repeat rewrite <- app_assoc; reflexivity|].
    split; [exact PA | constructor; auto].
  - inversion H; subst. exists a, ANil, t, []. split; [reflexivity|]. split; [rewrite app_nil_r; reflexivity|]. split; [exact PA | constructor].
Qed.
Lemma sound_args : forall f, S_sub f -> S_args f -> S_args (Datatypes.S f).
Proof.
  intros f IS IG first s g u N H. rewrite p_args_eq in H. destruct (Z.eqb_spec (hd0 s) 41) as [E|E].
  { inversion H; subst. split; [exact E|]. exists []. split; [reflexivity|]. destruct first; constructor. }
  apply bind_ok in H. destruct H as (b & B & H).
  assert (X : (first = true /\ b = s) \/ (first = false /\ exists bb, s = 44 :: bb ++ b /\ skipped bb b)).
  { destruct first; [left; inversion B; auto|]. right. split; [reflexivity|]. destruct (Z.eqb_spec (hd0 s) 44) as [E1|E1]; [|discriminate].
    assert (EV := adv1_hd s 44 E1 ltac:(lia)). rewrite EV in N. apply (nlc_suffix [44]) in N.
    destruct (blanks_sound _ _ N B) as (bb & X & SK). exists bb. split; [rewrite EV, X at 1; reflexivity | exact SK]. }
  destruct (negb first && (hd0 b =? 41)) eqn:Q.
  { apply andb_true_iff in Q. destruct Q as [Q1 Q2]. destruct first; [discriminate|]. apply Z.eqb_eq in Q2. inversion H; subst. split; [exact Q2|].
    destruct X as [[X _]|[_ (bb & -> & SK)]]; [discriminate|]. exists (44 :: bb). split; [reflexivity|]. constructor.
    apply (skipped_trivia _ _ SK). intros ->. discriminate Q2. }
  apply bind_ok in H. destruct H as ([po v] & HS & H). cbn [fst snd] in H. destruct po as [|e]; [discriminate|].
  apply bind_ok in H. destruct H as ([g' u'] & HG & H). cbn [fst snd] in H. inversion H; subst g u'. clear H.
  assert (NB : no_lone_cr b).
  { destruct X as [[_ ->]|[_ (bb & -> & _)]]; [exact N|]. apply (nlc_suffix [44]) in N. apply nlc_suffix in N. exact N. }
  destruct (IS _ _ _ NB HS) as (b0 & t & r & X1 & TB & SP & SK). assert (NV := NB). rewrite X1 in NV. do 3 apply nlc_suffix in NV.
  destruct (IG _ _ _ _ NV HG) as (E1 & t2 & X2 & PM). cbn iota in PM. split; [exact E1|].
  assert (NE : v <> []) by (intros ->; destruct t2; [cbn in X2; subst u; discriminate E1 | discriminate X2]).
  apply (skipped_trivia _ _ SK) in NE.
  destruct X as [[-> X]|[-> (bb & -> & SKB)]].
  - subst b. exists (b0 ++ t ++ r ++ t2). split; [rewrite X1, X2; repeat rewrite <- app_assoc; reflexivity | constructor; auto].
  - exists (44 :: (bb ++ b0) ++ t ++ r ++ t2). split; [rewrite X1, X2; cbn [app]; repeat rewrite <- app_assoc; reflexivity|].
    constructor; auto. apply trivia_app; [|exact TB]. apply (skipped_trivia _ _ SKB).
    intros ->. destruct b0; [destruct t; [destruct r; [cbn in X1; subst v; destruct t2; [cbn in X2; subst u; discriminate E1 | discriminate X2]|discriminate X1]|discriminate X1] | discriminate X1].
Qed.
Theorem sound_all : forall f, S_sub f /\ S_toks f /\ S_opnd f /\ S_core f /\ S_accs f /\ S_args f.
Proof.
  induction f as [|f (I1 & I2 & I3 & I4 & I5 & I6)].
  - repeat split; try (intro; intros; discriminate). all: unfold S_sub, S_toks, S_opnd, S_core, S_accs, S_args; intros; discriminate.
  - split; [apply sound_sub; auto|]. split; [apply sound_toks; auto|]. split; [apply sound_opnd; auto|].
    split; [apply sound_core; auto|]. split; [apply sound_accs; auto | apply sound_args; auto].
Qed.
End Sound.
