From Coq Require Import List ZArith Bool Lia String.
From Verif Require Import Base StringModel LexModel LexSpec.
Import ListNotations.
Local Open Scope Z_scope.

Lemma peek0 : forall s, peek 0 s = Ok (hd0 s).
Proof. destruct s; reflexivity. Qed.
Lemma peek_cons : forall n c s, peek (S n) (c :: s) = peek n s.
Proof. intros. unfold peek. cbn [List.length nth]. change (S n <=? S (List.length s))%nat with (n <=? List.length s)%nat. reflexivity. Qed.

Lemma two_nil : forall a b, all_of [is 0 a; is 1 b] [] = if 0 =? a then UB else Ok false.
Proof. intros. unfold all_of, is. rewrite peek0. cbn [rbind hd0 hd Bool.eqb]. destruct (0 =? a); reflexivity. Qed.
Lemma two_cons : forall a b c s, all_of [is 0 a; is 1 b] (c :: s) = Ok ((c =? a) && (hd0 s =? b)).
Proof.
  intros. unfold all_of, is. rewrite peek0, peek_cons, peek0. cbn [rbind hd0 hd].
  destruct (c =? a); cbn [Bool.eqb rbind andb]; [|reflexivity].
  unfold hd0. destruct (hd 0 s =? b); reflexivity.
Qed.

Definition two (a b : Z) (s : ptr) : bool :=
  match s with c :: r => (c =? a) && (hd0 r =? b) | [] => false end.
Lemma sl_eq : forall s, is_comment_single_line s = Ok (two 47 47 s).
Proof. destruct s; [reflexivity | apply two_cons]. Qed.
Lemma bs_eq : forall s, is_comment_block_start s = Ok (two 47 42 s).
Proof. destruct s; [reflexivity | apply two_cons]. Qed.
Lemma be_eq : forall s, is_comment_block_end s = Ok (two 42 47 s).
Proof. destruct s; [reflexivity | apply two_cons]. Qed.

Lemma two_spec : forall a b s, b <> 0 -> two a b s = true <-> exists r, s = a :: b :: r.
Proof.
  intros a b s Hb. unfold two. destruct s as [|c r]; [split; [discriminate | intros [r E]; discriminate]|].
  rewrite andb_true_iff, !Z.eqb_eq. split.
  - intros [-> H]. destruct r as [|d r]; cbn in H; [congruence|]. subst d. eauto.
  - intros [r' E]. inversion E; subst. cbn. auto.
Qed.

(** ** Block comments *)
Lemma tbe_cons : forall c s l, to_block_end (c :: s) l =
  if two 42 47 (c :: s) then (c :: s, l) else to_block_end s (if c =? 10 then l + 1 else l).
Proof. intros. cbn [to_block_end]. rewrite be_eq. destruct (two 42 47 (c :: s)); reflexivity. Qed.

Lemma newlines_cons : forall c s, newlines (c :: s) = (if c =? 10 then 1 else 0) + newlines s.
Proof.
  intros. unfold newlines, zlen. cbn [filter]. rewrite (Z.eqb_sym c).
  destruct (10 =? c); cbn [List.length]; lia.
Qed.
Lemma newlines_app : forall a b, newlines (a ++ b) = newlines a + newlines b.
Proof. intros. unfold newlines, zlen. rewrite filter_app, app_length. lia. Qed.
Lemma newlines_none : forall a, ~ In 10 a -> newlines a = 0.
Proof.
  induction a; intros; [reflexivity|]. rewrite newlines_cons.
  destruct (Z.eqb_spec a 10); [exfalso; apply H; left; auto|]. rewrite IHa; [lia|]. intros K; apply H; right; auto.
Qed.

Lemma not_contains_tl : forall p c b, ~ contains p (c :: b) -> ~ contains p b.
Proof. intros p c b H (x & y & E). apply H. exists (c :: x), y. rewrite E. reflexivity. Qed.

Lemma tbe_spec : forall s l r l', to_block_end s l = (r, l') ->
  exists b, s = b ++ r /\ ~ contains (bytes "*/") b /\ l' = l + newlines b /\
    (r = [] \/ exists t, r = bytes "*/" ++ t).
Proof.
  induction s as [|c s IH]; intros l r l' H.
  - inversion H; subst. exists []. split; [reflexivity|]. split; [intros (x & y & E); destruct x; discriminate|].
    split; [unfold newlines, zlen; cbn; lia | left; reflexivity].
  - rewrite tbe_cons in H. destruct (two 42 47 (c :: s)) eqn:T.
    + inversion H; subst. exists []. split; [reflexivity|]. split; [intros (x & y & E); destruct x; discriminate|].
      split; [unfold newlines, zlen; cbn; lia|]. right. apply two_spec in T; [|lia]. destruct T as [t E]. exists t. exact E.
    + destruct (IH _ _ _ H) as (b & E & NC & L & R).
      exists (c :: b). split; [rewrite E; reflexivity|]. split; [|split; [rewrite newlines_cons; destruct (c =? 10); lia | exact R]].
      intros (x & y & E'). destruct x as [|x0 x].
      * cbn in E'. inversion E'; subst.
        assert (two 42 47 (42 :: (47 :: y) ++ r) = true) by (apply two_spec; [lia | cbn; eauto]). congruence.
      * inversion E'; subst. apply NC. exists x, y. reflexivity.
Qed.

Lemma tbe_open : forall b l, ~ contains (bytes "*/") b -> to_block_end b l = ([], l + newlines b).
Proof.
  induction b as [|c b IH]; intros l H; [cbn; f_equal; unfold newlines, zlen; cbn; lia|].
  rewrite tbe_cons. destruct (two 42 47 (c :: b)) eqn:T.
  - apply two_spec in T; [|lia]. destruct T as [t E]. exfalso. apply H. exists [], t. rewrite E. reflexivity.
  - rewrite IH by (eapply not_contains_tl; eauto). rewrite newlines_cons. f_equal. destruct (c =? 10); lia.
Qed.

Lemma tbe_closed : forall b t l, ~ contains (bytes "*/") b ->
  to_block_end (b ++ bytes "*/" ++ t) l = (bytes "*/" ++ t, l + newlines b).
Proof.
  induction b as [|c b IH]; intros t l H.
  - cbn [app]. change (bytes "*/" ++ t) with (42 :: 47 :: t). rewrite tbe_cons. cbn. f_equal. unfold newlines, zlen; cbn; lia.
  - cbn [app]. rewrite tbe_cons. destruct (two 42 47 (c :: b ++ bytes "*/" ++ t)) eqn:T.
    + apply two_spec in T; [|lia]. destruct T as [r E]. destruct b as [|d b].
      * cbn in E. inversion E; subst.
      * exfalso. apply H. inversion E; subst. exists [], b. reflexivity.
    + rewrite IH by (eapply not_contains_tl; eauto). rewrite newlines_cons. f_equal. destruct (c =? 10); lia.
Qed.

(** ** Blanks *)
Lemma len_spaces : forall s, (List.length (skip_spaces s) <= List.length s)%nat.
Proof. induction s as [|c s IH]; cbn; [lia|]. destruct ((c =? 32) || (c =? 9)); cbn; lia. Qed.
Lemma len_line : forall s, (List.length (skip_line s) <= List.length s)%nat.
Proof. induction s as [|c s IH]; cbn; [lia|]. destruct (c =? 10); cbn; lia. Qed.
Lemma len_tbe : forall s l, (List.length (fst (to_block_end s l)) <= List.length s)%nat.
Proof.
  intros s l. destruct (to_block_end s l) as [r l'] eqn:E. apply tbe_spec in E. destruct E as (b & -> & _).
  cbn [fst]. rewrite app_length. lia.
Qed.
Lemma len_adv : forall n s, (List.length (adv n s) <= List.length s)%nat.
Proof. intros. unfold adv. rewrite skipn_length. lia. Qed.
Lemma hd10 : forall s, hd0 s =? 10 = true -> exists r, s = 10 :: r.
Proof. destruct s as [|c s]; cbn; intros H; [discriminate|]. apply Z.eqb_eq in H. subst. eauto. Qed.

(** What one iteration does before its line end test. *)
Definition head_of (s : ptr) (line : Z) : option (ptr * Z * bool) :=
  let s1 := skip_spaces s in
  if two 47 47 s1 then Some (skip_line s1, line, true)
  else if two 47 42 s1 then
    let r := to_block_end (adv 2 s1) line in
    Some (if two 42 47 (fst r) then adv 2 (fst r) else fst r, snd r, false)
  else if two 42 47 s1 then None
  else Some (s1, line, true).

Lemma loop_eq : forall f s l, blanks_loop (S f) s l =
  match head_of s l with
  | None => Thr
  | Some (s2, l2, fin) =>
      let s3 := if hd0 s2 =? 13 then adv 1 s2 else s2 in
      if hd0 s3 =? 10 then blanks_loop f (adv 1 s3) (l2 + 1)
      else if (fin : bool) then Ok (s3, l2) else blanks_loop f s3 l2
  end.
Proof.
  intros. cbn [blanks_loop]. rewrite sl_eq. cbn [rbind]. unfold head_of.
  destruct (two 47 47 (skip_spaces s)); [reflexivity|].
  rewrite bs_eq. cbn [rbind]. destruct (two 47 42 (skip_spaces s)).
  - unfold advance_to_end_block_comment. rewrite be_eq. reflexivity.
  - rewrite be_eq. cbn [rbind]. destruct (two 42 47 (skip_spaces s)); reflexivity.
Qed.

Lemma head_len : forall s l s2 l2 fin, head_of s l = Some (s2, l2, fin) ->
  (List.length s2 <= List.length s)%nat /\ (fin = false -> (List.length s2 < List.length s)%nat).
Proof.
  intros s l s2 l2 fin H. unfold head_of in H. pose proof (len_spaces s) as L.
  destruct (two 47 47 (skip_spaces s)).
  - inversion H; subst. pose proof (len_line (skip_spaces s)). split; [lia | discriminate].
  - destruct (two 47 42 (skip_spaces s)) eqn:T.
    + apply two_spec in T; [|lia]. destruct T as [r E]. rewrite E in *. change (adv 2 (47 :: 42 :: r)) with r in H.
      pose proof (len_tbe r l) as L2. cbn [List.length] in L.
      pose proof (len_adv 2 (fst (to_block_end r l))) as L3.
      set (q := adv 2 (fst (to_block_end r l))) in *. clearbody q.
      inversion H; subst.
      destruct (two 42 47 (fst (to_block_end r l))); split; intros; lia.
    + destruct (two 42 47 (skip_spaces s)); [discriminate|]. inversion H; subst. split; [lia | discriminate].
Qed.

Lemma loop_fuel : forall f1 f2 s l, (List.length s < f1)%nat -> (List.length s < f2)%nat ->
  blanks_loop f1 s l = blanks_loop f2 s l.
Proof.
  induction f1 as [|f1 IH]; intros f2 s l H1 H2; [lia|]. destruct f2 as [|f2]; [lia|].
  rewrite !loop_eq. destruct (head_of s l) as [[[s2 l2] fin]|] eqn:E; [|reflexivity].
  destruct (head_len _ _ _ _ _ E) as [L1 L2]. cbv zeta.
  set (s3 := if hd0 s2 =? 13 then adv 1 s2 else s2).
  assert (L3 : (List.length s3 <= List.length s2)%nat) by (unfold s3; destruct (hd0 s2 =? 13); [apply len_adv | lia]).
  destruct (hd0 s3 =? 10) eqn:N.
  - destruct (hd10 _ N) as [r E3]. rewrite E3 in *. cbn [adv skipn List.length] in *. apply IH; lia.
  - destruct fin; [reflexivity|]. specialize (L2 eq_refl). apply IH; lia.
Qed.

Lemma ib_eq : forall s l, ignore_blanks s l =
  match head_of s l with
  | None => Thr
  | Some (s2, l2, fin) =>
      let s3 := if hd0 s2 =? 13 then adv 1 s2 else s2 in
      if hd0 s3 =? 10 then ignore_blanks (adv 1 s3) (l2 + 1)
      else if (fin : bool) then Ok (s3, l2) else ignore_blanks s3 l2
  end.
Proof.
  intros. unfold ignore_blanks at 1. rewrite loop_eq.
  destruct (head_of s l) as [[[s2 l2] fin]|] eqn:E; [|reflexivity].
  destruct (head_len _ _ _ _ _ E) as [L1 L2]. cbv zeta.
  set (s3 := if hd0 s2 =? 13 then adv 1 s2 else s2).
  assert (L3 : (List.length s3 <= List.length s2)%nat) by (unfold s3; destruct (hd0 s2 =? 13); [apply len_adv | lia]).
  destruct (hd0 s3 =? 10) eqn:N.
  - destruct (hd10 _ N) as [r E3]. rewrite E3 in *. cbn [adv skipn List.length] in *. unfold ignore_blanks. apply loop_fuel; lia.
  - destruct fin; [reflexivity|]. specialize (L2 eq_refl). unfold ignore_blanks. apply loop_fuel; lia.
Qed.

Lemma ib_space : forall c s l, c = 32 \/ c = 9 -> ignore_blanks (c :: s) l = ignore_blanks s l.
Proof.
  intros c s l H. rewrite !ib_eq. replace (head_of (c :: s) l) with (head_of s l); [reflexivity|].
  unfold head_of. replace (skip_spaces (c :: s)) with (skip_spaces s); [reflexivity|].
  cbn [skip_spaces]. destruct H as [-> | ->]; reflexivity.
Qed.

(** A position where neither blanks nor comments start. *)
Lemma head_plain : forall s l, hd0 s <> 32 -> hd0 s <> 9 -> two 47 47 s = false -> two 47 42 s = false ->
  head_of s l = if two 42 47 s then None else Some (s, l, true).
Proof.
  intros s l A B C D. unfold head_of.
  replace (skip_spaces s) with s.
  - rewrite C, D. reflexivity.
  - destruct s as [|c s]; [reflexivity|]. cbn [skip_spaces]. cbn in A, B.
    destruct (Z.eqb_spec c 32); [congruence|]. destruct (Z.eqb_spec c 9); [congruence|]. reflexivity.
Qed.

Lemma ib_nl : forall s l, ignore_blanks (10 :: s) l = ignore_blanks s (l + 1).
Proof. intros. rewrite ib_eq. rewrite head_plain by (cbn; congruence). reflexivity. Qed.
Lemma ib_cr : forall s l, hd0 s <> 10 -> ignore_blanks (13 :: s) l = Ok (s, l).
Proof.
  intros. rewrite ib_eq. rewrite head_plain by (cbn; congruence).
  change (two 42 47 (13 :: s)) with false. cbv iota zeta. change (hd0 (13 :: s) =? 13) with true.
  cbn [adv skipn]. destruct (Z.eqb_spec (hd0 s) 10); [congruence | reflexivity].
Qed.
Lemma ib_crlf : forall s l, ignore_blanks (13 :: 10 :: s) l = ignore_blanks s (l + 1).
Proof. intros. rewrite ib_eq. rewrite head_plain by (cbn; congruence). reflexivity. Qed.

Lemma skip_line_nl : forall b t, ~ In 10 b -> skip_line (b ++ 10 :: t) = 10 :: t.
Proof.
  induction b as [|c b IH]; intros t H; [reflexivity|]. cbn [app skip_line].
  destruct (Z.eqb_spec c 10); [exfalso; apply H; left; auto|]. apply IH. intros K; apply H; right; auto.
Qed.
Lemma skip_line_end : forall b, ~ In 10 b -> skip_line b = [].
Proof.
  induction b as [|c b IH]; intros H; [reflexivity|]. cbn [skip_line].
  destruct (Z.eqb_spec c 10); [exfalso; apply H; left; auto|]. apply IH. intros K; apply H; right; auto.
Qed.
Lemma head_line : forall b l, head_of (bytes "//" ++ b) l = Some (skip_line b, l, true).
Proof. intros. reflexivity. Qed.
Lemma ib_line : forall b t l, ~ In 10 b -> ignore_blanks (bytes "//" ++ b ++ 10 :: t) l = ignore_blanks t (l + 1).
Proof. intros. rewrite ib_eq, head_line, skip_line_nl by auto. reflexivity. Qed.
Lemma ib_open_line : forall b l, ~ In 10 b -> ignore_blanks (bytes "//" ++ b) l = Ok ([], l).
Proof. intros. rewrite ib_eq, head_line, skip_line_end by auto. reflexivity. Qed.

Lemma head_block : forall b l, head_of (bytes "/*" ++ b) l =
  Some (if two 42 47 (fst (to_block_end b l)) then adv 2 (fst (to_block_end b l)) else fst (to_block_end b l),
        snd (to_block_end b l), false).
Proof. reflexivity. Qed.
Lemma ib_block : forall b t l, ~ contains (bytes "*/") b -> (hd0 t = 13 -> exists r, t = 13 :: 10 :: r) ->
  ignore_blanks (bytes "/*" ++ b ++ bytes "*/" ++ t) l = ignore_blanks t (l + newlines b).
Proof.
  intros b t l H C. rewrite ib_eq, head_block, tbe_closed by auto.
  cbn [fst snd]. change (adv 2 (bytes "*/" ++ t)) with t. change (two 42 47 (bytes "*/" ++ t)) with true. cbv iota zeta.
  destruct (Z.eqb_spec (hd0 t) 13) as [E|E].
  - destruct (C E) as [r ->]. cbn [adv skipn]. change (hd0 (10 :: r) =? 10) with true. cbv iota.
    rewrite ib_crlf. reflexivity.
  - destruct (hd0 t =? 10) eqn:N; [|reflexivity]. destruct (hd10 _ N) as [r ->]. rewrite ib_nl. reflexivity.
Qed.
Lemma ib_nil : forall l, ignore_blanks [] l = Ok ([], l).
Proof. reflexivity. Qed.
Lemma ib_open_block : forall b l, ~ contains (bytes "*/") b ->
  ignore_blanks (bytes "/*" ++ b) l = Ok ([], l + newlines b).
Proof. intros. rewrite ib_eq, head_block, tbe_open by auto. cbn. reflexivity. Qed.
Lemma ib_stray : forall t l, ignore_blanks (bytes "*/" ++ t) l = Thr.
Proof. intros. rewrite ib_eq. reflexivity. Qed.
Lemma ib_sig : forall s l, hd0 s <> 32 -> hd0 s <> 9 -> hd0 s <> 10 -> hd0 s <> 13 ->
  two 47 47 s = false -> two 47 42 s = false -> two 42 47 s = false -> ignore_blanks s l = Ok (s, l).
Proof.
  intros. rewrite ib_eq, head_plain, H5 by auto. cbv zeta.
  destruct (Z.eqb_spec (hd0 s) 13); [congruence|]. destruct (Z.eqb_spec (hd0 s) 10); [congruence|]. reflexivity.
Qed.

(** Every text has one of the shapes above. *)
Lemma nl_or_not : forall s, ~ In 10 s \/ exists b t, s = b ++ 10 :: t /\ ~ In 10 b.
Proof.
  induction s as [|c s IH]; [left; intros []|].
  destruct (Z.eq_dec c 10) as [-> | N]; [right; exists [], s; split; [reflexivity | intros []]|].
  destruct IH as [H | (b & t & -> & H)].
  - left. intros [K|K]; congruence.
  - right. exists (c :: b), t. split; [reflexivity | intros [K|K]; [congruence | auto]].
Qed.
Lemma ibl_or_not : forall s, ~ contains (bytes "*/") s \/
  exists b t, s = b ++ bytes "*/" ++ t /\ ~ contains (bytes "*/") b.
Proof.
  intros s. destruct (to_block_end s 0) as [r l] eqn:E. apply tbe_spec in E. destruct E as (b & -> & N & _ & [-> | [t ->]]).
  - left. rewrite app_nil_r. exact N.
  - right. eauto.
Qed.

Lemma blanks_main : forall n s l, (List.length s < n)%nat -> no_lone_cr s ->
  match ignore_blanks s l with
  | Ok (r, l') => exists b, s = b ++ r /\ significant r /\ l' = l + newlines b /\
      (trivia b \/ exists b1 b2, b = b1 ++ b2 /\ trivia b1 /\ r = [] /\ (open_line b2 \/ open_block b2))
  | Thr => exists b r, s = b ++ bytes "*/" ++ r /\ trivia b
  | _ => False
  end.
Proof.
  induction n as [|n IH]; intros s l Hn Hcr; [lia|].
  assert (step : forall p t l1, s = p ++ t -> (List.length t < List.length s)%nat ->
      l1 = l + newlines p -> (forall b, trivia b -> trivia (p ++ b)) ->
      ignore_blanks s l = ignore_blanks t l1 ->
      match ignore_blanks s l with
      | Ok (r, l') => exists b, s = b ++ r /\ significant r /\ l' = l + newlines b /\
          (trivia b \/ exists b1 b2, b = b1 ++ b2 /\ trivia b1 /\ r = [] /\ (open_line b2 \/ open_block b2))
      | Thr => exists b r, s = b ++ bytes "*/" ++ r /\ trivia b
      | _ => False
      end).
  { intros p t l1 E L L1 T Q. rewrite Q.
    assert (Hc : no_lone_cr t) by (intros a b X; apply (Hcr (p ++ a) b); rewrite E, X, app_assoc; reflexivity).
    specialize (IH t l1 ltac:(lia) Hc). destruct (ignore_blanks t l1) as [[r l'] | | |]; try exact IH.
    - destruct IH as (b & E1 & S & L2 & D). exists (p ++ b).
      split; [rewrite E, E1, app_assoc; reflexivity|]. split; [exact S|].
      split; [rewrite newlines_app; lia|].
      destruct D as [D | (b1 & b2 & -> & T1 & R & O)]; [left; auto|].
      right. exists (p ++ b1), b2. split; [apply app_assoc|]. split; [auto|]. split; [exact R | exact O].
    - destruct IH as (b & r & E1 & T1). exists (p ++ b), r. split; [rewrite E, E1, app_assoc; reflexivity | auto]. }
  assert (nlz : newlines [] = 0) by reflexivity.
  destruct s as [|c s].
  { rewrite ib_nil. exists []. split; [reflexivity|]. split; [|split; [lia | left; constructor]].
    split; [intros (c & r & E & _); discriminate|]. split; [intros (r & E); discriminate|].
    split; intros (r & E); discriminate. }
  destruct (Z.eq_dec c 32) as [->|N32].
  { apply (step [32] s l); [reflexivity | cbn; lia | cbn; lia | intros; constructor; auto | apply ib_space; auto]. }
  destruct (Z.eq_dec c 9) as [->|N9].
  { apply (step [9] s l); [reflexivity | cbn; lia | cbn; lia | intros; constructor; auto | apply ib_space; auto]. }
  destruct (Z.eq_dec c 10) as [->|N10].
  { apply (step [10] s (l + 1)); [reflexivity | cbn; lia | cbn; lia | intros; constructor; auto | apply ib_nl]. }
  destruct (Z.eq_dec c 13) as [->|N13].
  { destruct (Hcr [] s eq_refl) as [s' ->].
    apply (step [13; 10] s' (l + 1)); [reflexivity | cbn; lia | cbn; lia | intros; apply tr_crlf; auto | apply ib_crlf]. }
  destruct (two 47 47 (c :: s)) eqn:T1.
  { apply two_spec in T1; [|lia]. destruct T1 as [r E]. rewrite E in *.
    destruct (nl_or_not r) as [N | (b & t & -> & N)].
    - change (47 :: 47 :: r) with (bytes "//" ++ r) in *. rewrite ib_open_line by auto.
      exists (bytes "//" ++ r). split; [rewrite app_nil_r; reflexivity|].
      split; [split; [intros (c' & r' & X & _); discriminate|]; split; [intros (r' & X); discriminate|]; split; intros (r' & X); discriminate|].
      split; [rewrite newlines_app, (newlines_none r) by auto; cbn; lia|].
      right. exists [], (bytes "//" ++ r). split; [reflexivity|]. split; [constructor|]. split; [reflexivity|].
      left. exists r. auto.
    - apply (step (bytes "//" ++ b ++ [10]) t (l + 1)).
      + rewrite <- !app_assoc. reflexivity.
      + cbn [List.length]. rewrite app_length. cbn. lia.
      + rewrite !newlines_app, (newlines_none b) by auto. cbn. lia.
      + intros b' T. rewrite <- !app_assoc. apply tr_line; auto.
      + change (47 :: 47 :: b ++ 10 :: t) with (bytes "//" ++ b ++ 10 :: t). apply ib_line; auto. }
  destruct (two 47 42 (c :: s)) eqn:T2.
  { apply two_spec in T2; [|lia]. destruct T2 as [r E]. rewrite E in *.
    destruct (ibl_or_not r) as [N | (b & t & -> & N)].
    - change (47 :: 42 :: r) with (bytes "/*" ++ r) in *. rewrite ib_open_block by auto.
      exists (bytes "/*" ++ r). split; [rewrite app_nil_r; reflexivity|].
      split; [split; [intros (c' & r' & X & _); discriminate|]; split; [intros (r' & X); discriminate|]; split; intros (r' & X); discriminate|].
      split; [rewrite newlines_app; cbn [newlines]; change (newlines (bytes "/*")) with 0; lia|].
      right. exists [], (bytes "/*" ++ r). split; [reflexivity|]. split; [constructor|]. split; [reflexivity|].
      right. exists r. auto.
    - apply (step (bytes "/*" ++ b ++ bytes "*/") t (l + newlines b)).
      + rewrite <- !app_assoc. reflexivity.
      + cbn [List.length]. rewrite !app_length. cbn. lia.
      + rewrite !newlines_app. change (newlines (bytes "/*")) with 0. change (newlines (bytes "*/")) with 0. lia.
      + intros b' T. rewrite <- !app_assoc. apply tr_block; auto.
      + change (47 :: 42 :: b ++ bytes "*/" ++ t) with (bytes "/*" ++ b ++ bytes "*/" ++ t) in *. apply ib_block; auto.
        intros H13. destruct t as [|x t]; [discriminate|]. cbn in H13. subst x.
        destruct (Hcr (bytes "/*" ++ b ++ bytes "*/") t) as [t' ->]; [rewrite <- !app_assoc; reflexivity | eauto]. }
  destruct (two 42 47 (c :: s)) eqn:T3.
  { apply two_spec in T3; [|lia]. destruct T3 as [r E]. rewrite E.
    change (42 :: 47 :: r) with (bytes "*/" ++ r). rewrite ib_stray. exists [], r. split; [reflexivity | constructor]. }
  rewrite ib_sig by (cbn; auto). exists []. split; [reflexivity|]. split; [|split; [lia | left; constructor]].
  split; [intros (c' & r & E & [K|[K|K]]); inversion E; congruence|].
  split; [intros (r & E); inversion E; congruence|].
  split; intros (r & E).
  - assert (two 47 47 (c :: s) = true) by (apply two_spec; [lia | exists r; exact E]). congruence.
  - assert (two 47 42 (c :: s) = true) by (apply two_spec; [lia | exists r; exact E]). congruence.
Qed.

Lemma blanks_insig : forall b, trivia b -> forall t l, (hd 0 t = 13 -> exists r, t = 13 :: 10 :: r) ->
  ignore_blanks (b ++ t) l = ignore_blanks t (l + newlines b).
Proof.
  assert (K : forall b, trivia b -> forall t, (hd 0 t = 13 -> exists r, t = 13 :: 10 :: r) ->
     hd0 (b ++ t) = 13 -> exists r, b ++ t = 13 :: 10 :: r).
  { intros b T t H E. destruct T; cbn in *; eauto; try discriminate. destruct H0 as [-> | [-> | ->]]; discriminate. }
  induction 1 as [|c b Hc T IH|b T IH|b t' N T IH|b t' N T IH]; intros t l H.
  - cbn [app]. f_equal. cbn. lia.
  - cbn [app]. rewrite newlines_cons. destruct Hc as [-> | [-> | ->]].
    + rewrite ib_space, IH by auto. f_equal.
    + rewrite ib_space, IH by auto. f_equal.
    + rewrite ib_nl, IH by auto. f_equal. cbn [Z.eqb Pos.eqb]. lia.
  - cbn [app]. rewrite ib_crlf, IH by auto. f_equal. rewrite !newlines_cons. cbn [Z.eqb Pos.eqb]. lia.
  - rewrite <- !app_assoc. cbn [app]. rewrite ib_line, IH by auto. f_equal.
    rewrite !newlines_app, newlines_cons, (newlines_none b) by auto. change (newlines (bytes "//")) with 0. cbn [Z.eqb Pos.eqb]. lia.
  - rewrite <- !app_assoc. rewrite ib_block, IH by (auto; apply (K t' T t H)). f_equal.
    rewrite !newlines_app. change (newlines (bytes "/*")) with 0. change (newlines (bytes "*/")) with 0. lia.
Qed.
