(** Proofs about the scanning of keywords, numbers, strings and words. *)
From Coq Require Import List ZArith Bool Lia String.
From Verif Require Import Base StringModel LexModel LexSpec LexProofs LexOps.
Import ListNotations.
Local Open Scope Z_scope.

(** ** The end of a token *)
Definition ender0 : list Z := [0; 32; 9; 10; 13] ++ bytes "(){}[].,;:?=+-*/%^&|<>".
Definition ends_after (pre : Z) (t : list Z) : Prop :=
  In (hd 0 t) ender0 \/ (exists r, t = 33 :: 61 :: r) \/ (hd 0 t = 34 /\ pre <> 92).

Lemma op_end : forall t, exists r, is_operator t = Ok r /\
  ((match r with Some OpInstanceof | Some OpIn | None => false | Some _ => true end = true ->
     In (hd 0 t) op_first \/ exists r, t = 33 :: 61 :: r) /\
   (match r with Some OpInstanceof | Some OpIn | None => false | Some _ => true end = false ->
     (In (hd 0 t) op_first -> exists a b s, t = a :: b :: s /\ (a = 43 \/ a = 45) /\ (b = 43 \/ b = 45)) /\
     ~ exists r, t = 33 :: 61 :: r)).
Proof.
  intros t. destruct (is_operator_spec t) as (r & E & H). exists r. split; [exact E|].
  assert (W : forall w, word_at (bytes w) t -> In (hd 0 (bytes w)) (bytes "i") -> ~ In (hd 0 t) op_first /\ ~ exists r, t = 33 :: 61 :: r).
  { intros w (c & q & -> & _) I. destruct (bytes w) as [|x l] eqn:EB; [cbn in I; destruct I as [I|[]]; discriminate|].
    cbn in I. destruct I as [<-|[]]. cbn [hd app]. split.
    - cbn. intros K. repeat (destruct K as [K|K]; [discriminate|]). exact K.
    - intros [r' K]. discriminate. }
  assert (P : forall o, In o punctuation -> longest_in language t (spelling o) ->
     In (hd 0 t) op_first \/ exists r, t = 33 :: 61 :: r).
  { intros o I (_ & [q ->] & _). destruct (op_first_spec o I) as [-> | (c & l & -> & K)].
    - right. exists q. reflexivity.
    - left. exact K. }
  destruct r as [o|].
  - destruct o; try (destruct H as [I L]; split; [intros _; eapply P; eauto | discriminate]);
      (split; [discriminate|]; intros _; apply W in H; [tauto | left; reflexivity]).
  - split; [discriminate|]. intros _. destruct H as (H & _ & _). split.
    + intros I. destruct (op_single _ I) as (o & Io & Eo). destruct t as [|a t]; [cbn in I; repeat (destruct I as [I|I]; [discriminate|]); destruct I|].
      destruct (H o Io) as [[q K]|[q K]].
      { rewrite Eo. exists t. reflexivity. }
      * cbn in K. inversion K. exists 43, 43, q. auto.
      * cbn in K. inversion K. exists 45, 45, q. auto.
    + intros [q ->]. assert (X : starts_with (33 :: 61 :: q) (bytes "++") \/ starts_with (33 :: 61 :: q) (bytes "--")).
      { apply (H OpNotEqual); [cbn; tauto | exists q; reflexivity]. }
      destruct X as [[q' K]|[q' K]]; discriminate.
Qed.

Lemma existsb_In : forall c l, existsb (Z.eqb c) l = true <-> In c l.
Proof.
  intros c l. rewrite existsb_exists. split.
  - intros (x & I & E). apply Z.eqb_eq in E. subst. exact I.
  - intros I. exists c. split; [exact I | apply Z.eqb_refl].
Qed.

Lemma inclb : forall l l', forallb (fun x => existsb (Z.eqb x) l') l = true -> incl l l'.
Proof. intros l l' H x I. rewrite forallb_forall in H. apply existsb_In, H, I. Qed.

Lemma end_spec : forall t pre, exists b, is_end_symbol_token t pre = Ok b /\ (b = true <-> ends_after pre t).
Proof.
  intros t pre. unfold is_end_symbol_token.
  destruct (op_end t) as (r & -> & HT & HF). cbn [rbind].
  assert (SUB : incl op_first ender0) by (apply inclb; reflexivity).
  destruct (match r with Some OpInstanceof | Some OpIn | None => false | Some _ => true end).
  - exists true. split; [reflexivity|]. split; [|reflexivity]. intros _. unfold ends_after.
    destruct (HT eq_refl); auto.
  - specialize (HF eq_refl). destruct HF as [HF NE].
    destruct (post_spec t) as (q & -> & Q). cbn [rbind].
    destruct q as [q|].
    + exists true. split; [reflexivity|]. split; [|reflexivity]. intros _.
      destruct Q as [Q _]. destruct Q as (a & b & s & -> & A & B); [discriminate|].
      left. cbn [hd]. destruct A as [-> | ->]; cbn; tauto.
    + assert (NO : ~ In (hd 0 t) op_first).
      { intros K. apply HF in K. apply Q in K. congruence. }
      unfold is_separator, is_special_char. rewrite peek0. unfold hd0. cbn [rbind].
      destruct (existsb (Z.eqb (hd 0 t)) [44; 59; 40; 41; 91; 93]) eqn:S1.
      { exists true. split; [reflexivity|]. split; [|reflexivity]. intros _. left.
        apply existsb_In in S1. revert S1. apply inclb. reflexivity. }
      destruct (existsb (Z.eqb (hd 0 t)) [0; 32; 9; 46; 40; 41; 123; 125; 91; 93; 10; 13; 58; 59]) eqn:S2.
      { exists true. split; [reflexivity|]. split; [|reflexivity]. intros _. left.
        apply existsb_In in S2. revert S2. apply inclb. reflexivity. }
      eexists. split; [reflexivity|]. rewrite andb_true_iff, negb_true_iff, Z.eqb_eq, Z.eqb_neq. split.
      * intros K. right. right. exact K.
      * intros [K|[K|K]]; [|contradiction|exact K]. exfalso.
        assert (N1 : ~ In (hd 0 t) [44; 59; 40; 41; 91; 93]) by (intros X; apply existsb_In in X; congruence).
        assert (N2 : ~ In (hd 0 t) [0; 32; 9; 46; 40; 41; 123; 125; 91; 93; 10; 13; 58; 59]) by (intros X; apply existsb_In in X; congruence).
        assert (I : incl ender0 (op_first ++ [44; 59; 40; 41; 91; 93] ++ [0; 32; 9; 46; 40; 41; 123; 125; 91; 93; 10; 13; 58; 59])).
        { apply inclb. reflexivity. }
        apply I in K. rewrite !in_app_iff in K. tauto.
Qed.
Lemma end_spec0 : forall t, exists b, is_end_symbol_token t 0 = Ok b /\ (b = true <-> ends_token t).
Proof.
  intros t. destruct (end_spec t 0) as (b & E & H). exists b. split; [exact E|]. rewrite H.
  unfold ends_after, ends_token.
  change ender with (ender0 ++ [34]). rewrite in_app_iff. cbn [In]. split.
  - intros [K|[K|[K _]]]; auto.
  - intros [[K|[K|[]]]|K]; auto. right. right. split; [auto | discriminate].
Qed.

(** ** Keywords *)
Definition special : list Z := [0; 32; 9; 46; 40; 41; 123; 125; 91; 93; 10; 13; 58; 59].
Definition keyword_at (k : keyword) (t : list Z) : Prop :=
  exists r, t = kw_spelling k ++ r /\ (In (hd 0 r) special \/ starts_with r (bytes "/*")).

Lemma adv_app : forall w r, adv (List.length w) (w ++ r) = r.
Proof. intros. unfold adv. rewrite skipn_app, skipn_all, Nat.sub_diag. reflexivity. Qed.

Lemma bs_spec : forall s, exists b, is_comment_block_start s = Ok b /\ (b = true <-> starts_with s (bytes "/*")).
Proof.
  intros [|a s].
  - exists false. split; [reflexivity|]. split; [discriminate | intros [r K]; discriminate].
  - unfold is_comment_block_start. rewrite two_cons. eexists. split; [reflexivity|].
    destruct (Z.eqb_spec a 47) as [->|N].
    + destruct s as [|b s]; cbn.
      * split; [discriminate | intros [r K]; discriminate].
      * rewrite Z.eqb_eq. split; [intros ->; exists s; reflexivity | intros [r K]; inversion K; reflexivity].
    + split; [discriminate | intros [r K]; inversion K; congruence].
Qed.

Lemma kw_test_spec : forall k t, exists b, kw_test k t = Ok b /\ (b = true <-> keyword_at k t).
Proof.
  intros k t. unfold kw_test, starts. destruct (is_prefix (kw_spelling k) t) eqn:P.
  - apply starts_spec in P. destruct P as [r ->]. cbv zeta. rewrite adv_app.
    unfold is_special_char. rewrite peek0. unfold hd0. cbn [rbind]. fold special.
    assert (U : forall b, (b = true <-> In (hd 0 r) special \/ starts_with r (bytes "/*")) ->
                (b = true <-> keyword_at k (kw_spelling k ++ r))).
    { intros b H. rewrite H. split; [intros K; exists r; auto|]. intros (r' & E & K). apply app_inv_head in E. subst. exact K. }
    destruct (existsb (Z.eqb (hd 0 r)) special) eqn:S.
    + exists true. split; [reflexivity|]. apply U. apply existsb_In in S. tauto.
    + destruct (bs_spec r) as (b & -> & B). exists b. split; [reflexivity|]. apply U. rewrite B. split; [auto|].
      intros [K|K]; [apply existsb_In in K; congruence | exact K].
  - exists false. split; [reflexivity|]. split; [discriminate|]. intros (r & E & _).
    assert (is_prefix (kw_spelling k) t = true) by (apply starts_spec; exists r; exact E). congruence.
Qed.

Lemma kw_all : forall k, In k keywords.
Proof. intros []; cbn; tauto. Qed.
Lemma kw_unique : forall k1 k2 t, starts_with t (kw_spelling k1) -> starts_with t (kw_spelling k2) -> k1 = k2.
Proof.
  intros k1 k2 t [r1 E1] [r2 E2].
  assert (F : is_prefix (kw_spelling k1) (kw_spelling k2) = true \/ is_prefix (kw_spelling k2) (kw_spelling k1) = true).
  { rewrite !starts_spec. subst t. revert E2. generalize (kw_spelling k1) (kw_spelling k2). clear.
    intros l1. induction l1 as [|x l1 IH]; intros [|y l2] E.
    - left. exists []. reflexivity.
    - left. exists (y :: l2). reflexivity.
    - right. exists (x :: l1). reflexivity.
    - inversion E; subst. destruct (IH l2 H1) as [[r K]|[r K]]; [left|right]; exists r; cbn; congruence. }
  destruct k1, k2; try reflexivity; exfalso; cbn in F; destruct F; discriminate.
Qed.

Lemma first_of_spec : forall {A} (l : list (A * (ptr -> res bool))) s (P : A -> Prop),
  (forall a f, In (a, f) l -> exists b, f s = Ok b /\ (b = true <-> P a)) ->
  exists r, first_of l s = Ok r /\
    match r with Some a => P a | None => forall a, In a (map fst l) -> ~ P a end.
Proof.
  induction l as [|[a f] l IH]; intros s P H.
  - exists None. split; [reflexivity|]. intros a [].
  - cbn [first_of]. destruct (H a f (or_introl eq_refl)) as (b & -> & B). cbn [rbind]. destruct b.
    + exists (Some a). split; [reflexivity | tauto].
    + destruct (IH s P) as (r & -> & R); [intros; apply H; right; auto|]. exists r. split; [reflexivity|].
      destruct r; [exact R|]. intros a' [<-|I]; [intros K; apply B in K; discriminate | apply R; exact I].
Qed.
Lemma is_keyword_spec : forall t, exists r, is_keyword t = Ok r /\
  (forall k, r = Some k <-> keyword_at k t).
Proof.
  intros t. unfold is_keyword.
  destruct (first_of_spec (map (fun k => (k, kw_test k)) keywords) t (fun k => keyword_at k t)) as (r & E & R).
  { intros k f I. apply in_map_iff in I. destruct I as (k' & E & _). inversion E; subst. apply kw_test_spec. }
  exists r. split; [exact E|]. destruct r as [k'|]; intros k.
  - split; [intros K; inversion K; subst; exact R|]. intros K. f_equal. destruct R as (r1 & R & _), K as (r2 & K & _).
    eapply kw_unique; [exists r1; exact R | exists r2; exact K].
  - split; [discriminate|]. intros K. exfalso. apply (R k); [|exact K]. rewrite map_map, map_id. apply kw_all.
Qed.

(** ** Strings *)
Lemma string_loop_sound : forall s pre b r, string_loop pre s = Ok (b, r) ->
  s = b ++ 34 :: r /\ ~ In 10 b /\
  (forall x y, b = x ++ 34 :: y -> exists x', pre :: x = x' ++ [92]) /\
  (forall x, pre :: b <> x ++ [92]).
Proof.
  induction s as [|c s IH]; intros pre b r H; cbn in H; [discriminate|].
  destruct (Z.eqb_spec c 34) as [->|N34]; cbn [andb] in H.
  - destruct (Z.eqb_spec pre 92) as [->|N92]; cbn [negb] in H.
    + cbn [Z.eqb] in H. change (34 =? 10) with false in H. cbv iota in H.
      destruct (string_loop 34 s) as [[b' r']| | |] eqn:E; cbn in H; try discriminate. inversion H; subst.
      destruct (IH _ _ _ E) as (-> & NL & Q & L). repeat split.
      * intros [K|K]; [discriminate | contradiction].
      * intros x y E'. destruct x as [|x0 x]; [exists []; reflexivity|]. inversion E'; subst.
        destruct (Q x y eq_refl) as [x' X]. exists (92 :: x'). cbn. rewrite <- X. reflexivity.
      * intros x E'. destruct x as [|x0 x]; [discriminate|]. inversion E'; subst. apply (L x). assumption.
    + inversion H; subst. repeat split.
      * intros [].
      * intros x y E. destruct x; discriminate.
      * intros x E. destruct x as [|x0 [|x1 x]]; inversion E; congruence.
  - destruct (Z.eqb_spec c 10) as [->|N10]; [discriminate|].
    destruct (string_loop c s) as [[b' r']| | |] eqn:E; cbn in H; try discriminate. inversion H; subst.
    destruct (IH _ _ _ E) as (-> & NL & Q & L). repeat split.
    + intros [K|K]; [congruence | contradiction].
    + intros x y E'. destruct x as [|x0 x]; [inversion E'; congruence|]. inversion E'; subst.
      destruct (Q x y eq_refl) as [x' X]. exists (pre :: x'). cbn. rewrite <- X. reflexivity.
    + intros x E'. destruct x as [|x0 x]; [discriminate|]. inversion E'; subst. apply (L x). assumption.
Qed.
Lemma string_loop_complete : forall b pre r, ~ In 10 b ->
  (forall x y, b = x ++ 34 :: y -> exists x', pre :: x = x' ++ [92]) ->
  (forall x, pre :: b <> x ++ [92]) ->
  string_loop pre (b ++ 34 :: r) = Ok (b, r).
Proof.
  induction b as [|c b IH]; intros pre r NL Q L; cbn.
  - destruct (Z.eqb_spec pre 92) as [->|N]; [exfalso; apply (L []); reflexivity|]. reflexivity.
  - destruct (Z.eqb_spec c 10) as [->|N10]; [exfalso; apply NL; left; reflexivity|].
    assert (R : string_loop c (b ++ 34 :: r) = Ok (b, r)).
    { apply IH.
      - intros K. apply NL. right. exact K.
      - intros x y ->. destruct (Q (c :: x) y eq_refl) as [[|p x'] X]; [discriminate|]. inversion X. exists x'. congruence.
      - intros x E. apply (L (pre :: x)). rewrite E. reflexivity. }
    destruct (Z.eqb_spec c 34) as [->|N34]; cbn [andb].
    + destruct (Q [] b eq_refl) as [x' X]. destruct x' as [|p [|p2 x']]; inversion X; subst.
      rewrite R. reflexivity.
    + rewrite R. reflexivity.
Qed.
Lemma string_literal_spec : forall t b r, string_literal t = Ok (b, r) <-> t = 34 :: b ++ 34 :: r /\ string_body b.
Proof.
  intros t b r. unfold string_literal. rewrite peek0. cbn [rbind]. split.
  - intros H. destruct t as [|c t]; [discriminate|]. cbn [hd0 hd] in H. destruct (Z.eqb_spec c 34) as [->|N]; [|discriminate].
    change (adv 1 (34 :: t)) with t in H. apply string_loop_sound in H. destruct H as (-> & NL & Q & L).
    split; [reflexivity|]. split; [exact NL|]. split.
    + intros x y E. destruct (Q x y E) as [[|p x'] X]; [inversion X|]. inversion X; subst. exists x'. reflexivity.
    + intros x ->. apply (L (34 :: x)). reflexivity.
  - intros (-> & NL & Q & L). cbn [hd0 hd]. change (34 =? 34) with true. cbv iota.
    change (adv 1 (34 :: b ++ 34 :: r)) with (b ++ 34 :: r). apply string_loop_complete; auto.
    + intros x y E. destruct (Q x y E) as [x' ->]. exists (34 :: x'). reflexivity.
    + intros [|p x] E; inversion E. eapply L. eassumption.
Qed.
Lemma string_loop_safe : forall s pre, string_loop pre s = Thr \/ exists r, string_loop pre s = Ok r.
Proof.
  induction s as [|c s IH]; intros pre; cbn; [auto|].
  destruct ((c =? 34) && negb (pre =? 92)); [eauto|]. destruct (c =? 10); [auto|].
  destruct (IH c) as [->|[r ->]]; cbn; eauto.
Qed.

(** ** Words *)
Lemma word_loop_ok : forall f s, (List.length s < f)%nat -> s <> [] ->
  exists w r, word_loop f s = Ok (w, r) /\ s = w ++ r /\ w <> [] /\
    (exists w' c, w = w' ++ [c] /\ ends_after c r) /\
    (forall x c y, w = x ++ c :: y -> y <> [] -> ~ ends_after c (y ++ r)).
Proof.
  induction f as [|f IH]; intros s L NE; [lia|].
  destruct s as [|c s]; [congruence|]. cbn [word_loop].
  destruct (end_spec s c) as (b & -> & B). cbn [rbind]. destruct b.
  - exists [c], s. split; [reflexivity|]. split; [reflexivity|]. split; [discriminate|]. split.
    + exists [], c. split; [reflexivity|]. tauto.
    + intros [|x0 x] d y E NY; inversion E; [congruence|]. destruct x; discriminate.
  - assert (NS : s <> []) by (intros ->; destruct B as [_ B]; discriminate B; left; cbn; tauto).
    destruct (IH s) as (w & r & -> & -> & NW & (w' & d & -> & ED) & M); [cbn in L; lia | exact NS|].
    cbn [rbind fst snd]. exists (c :: w' ++ [d]), r. split; [reflexivity|]. split; [reflexivity|]. split; [discriminate|]. split.
    + exists (c :: w'), d. auto.
    + intros [|x0 x] e y E NY; inversion E; subst.
      * intros K. apply B in K. discriminate.
      * apply (M x e y); auto.
Qed.
Lemma word_token_ok : forall s, s <> [] ->
  exists w r, word_token s = Ok (w, r) /\ s = w ++ r /\ w <> [] /\
    (exists w' c, w = w' ++ [c] /\ ends_after c r) /\
    (forall x c y, w = x ++ c :: y -> y <> [] -> ~ ends_after c (y ++ r)).
Proof. intros. apply word_loop_ok; [lia | auto]. Qed.
