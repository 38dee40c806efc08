(** The parser on texts of the grammar. *)
From Coq Require Import List ZArith Bool Lia.
From Verif Require Import Base FloatModel StringModel IntegerModel JsonModel JsonSpec JsonProofs.
Import ListNotations.
Open Scope Z_scope.

(** ** Comments *)
Lemma adv_char_in c t : exists c1, adv_char 42 (c ++ 42 :: t) = c1 ++ 42 :: t /\ suf c1 c.
Proof.
  induction c as [|x c IH]; cbn [app adv_char].
  - cbn. exists []. auto with suf.
  - destruct (x =? 10); [exists (x :: c); auto with suf|]. destruct (x =? 13); [exists c; auto with suf|].
    destruct (x =? 42); [exists (x :: c); auto with suf|]. destruct IH as (c1 & -> & S1). exists c1. auto with suf.
Qed.
Lemma skip1_in d c t : d <> 42 -> exists c1, skip1 d (c ++ 42 :: t) = c1 ++ 42 :: t /\ suf c1 c.
Proof.
  intros Hd. destruct c as [|x c]; cbn [app skip1].
  - destruct (Z.eqb_spec 42 d); [congruence|]. exists []. auto with suf.
  - destruct (x =? d); [exists c; auto with suf|exists (x :: c); auto with suf].
Qed.
Lemma has_suf a b : suf a b -> has a -> has b.
Proof. intros [p ->] (x & y & ->). exists (p ++ x), y. now rewrite app_assoc. Qed.

Lemma to_end_block f : forall c r, ~ has c -> (length (c ++ 42%Z :: 47%Z :: r) < f)%nat ->
  to_end f (c ++ 42 :: 47 :: r) = Ok (42 :: 47 :: r).
Proof.
  induction f as [|f IH]; intros c r Hc Hf; [lia|]. cbn [to_end].
  destruct (is_end (c ++ 42 :: 47 :: r)) eqn:He.
  - destruct c as [|x c]; [reflexivity|]. exfalso. apply Hc. apply is_end_spec in He as [b Eb].
    destruct c as [|y c]; cbn in Eb; [discriminate|]. injection Eb as -> -> _. exists [], c. reflexivity.
  - destruct (adv_char_in c (47 :: r)) as (c1 & E1 & S1).
    destruct (skip1_in 10 c1 (47 :: r)) as (c2 & E2 & S2); [lia|].
    destruct (skip1_in 13 c2 (47 :: r)) as (c3 & E3 & S3); [lia|].
    assert (S13 : suf c3 c) by (eapply suf_trans; [exact S3|]; eapply suf_trans; eauto).
    destruct c as [|x c]; [discriminate|].
    assert (E : skip1 13 (skip1 10 (adv_char 42 ((x :: c) ++ 42 :: 47 :: r))) = c3 ++ 42 :: 47 :: r)
      by now rewrite E1, E2, E3.
    cbn [app]. cbn [app] in E, He. rewrite E. clear E1 E2 E3.
    destruct c3 as [|y c4]; cbn [app].
    + cbn [hd]. replace (47 =? 47) with true by reflexivity.
      pose proof (round_less _ _ _ He E) as L. cbn [hd] in L. replace (47 =? 47) with true in L by reflexivity.
      cbn [app] in Hf. apply (IH []); [apply has_nil|]. cbn [app]. cbn in L, Hf |- *. lia.
    + pose proof (round_less _ y (c4 ++ 42 :: 47 :: r) He E) as L. cbn [app] in Hf.
      destruct (hd 0 (c4 ++ 42 :: 47 :: r) =? 47).
      * change (y :: c4 ++ 42 :: 47 :: r) with ((y :: c4) ++ 42 :: 47 :: r).
        apply IH; [intros K; apply Hc; eapply has_suf; eauto|]. cbn [app]. lia.
      * apply IH; [intros K; apply Hc; eapply has_suf; [|exact K]; eapply suf_cons_inv; eauto|]. lia.
Qed.

(** ** Blanks are skipped *)
Lemma blanks_once s : blanks s =
  if is_single (spaces s) then brest (length s) false (adv_char 10 (spaces s))
  else if is_start (spaces s) then do q <- end_comment (spaces s); brest (length s) true q
  else brest (length s) false (spaces s).
Proof. apply blanks_eq. Qed.

Lemma blanks_space c r : c = 32 \/ c = 9 -> blanks (c :: r) = blanks r.
Proof.
  intros H. rewrite (blanks_once (c :: r)). assert (E : spaces (c :: r) = spaces r) by (destruct H as [-> | ->]; reflexivity).
  rewrite E. rewrite <- (blanks_fuel (S (S (length r))) r) by lia. now rewrite blanks_eq.
Qed.
Lemma blanks_nl r : blanks (10 :: r) = blanks r.
Proof. reflexivity. Qed.
Lemma blanks_crnl r : blanks (13 :: 10 :: r) = blanks r.
Proof. exact (blanks_fuel (S (S (length r))) r ltac:(lia)). Qed.
Lemma adv_char_line c r : ~ In 10 c -> ~ In 13 c -> adv_char 10 (c ++ 10 :: r) = 10 :: r.
Proof.
  induction c as [|x c IH]; intros H1 H2; cbn [app adv_char]; [reflexivity|].
  destruct (Z.eqb_spec x 10) as [->|]; [destruct H1; cbn; auto|].
  destruct (Z.eqb_spec x 13) as [->|]; [destruct H2; cbn; auto|]. apply IH; intros K; [apply H1|apply H2]; cbn; auto.
Qed.
Lemma blanks_line c r : ~ In 10 c -> ~ In 13 c -> blanks (47 :: 47 :: c ++ 10 :: r) = blanks r.
Proof.
  intros H1 H2. rewrite blanks_once.
  change (spaces (47 :: 47 :: c ++ 10 :: r)) with (47 :: 47 :: c ++ 10 :: r).
  change (is_single (47 :: 47 :: c ++ 10 :: r)) with true. cbn match.
  assert (E : adv_char 10 (47 :: 47 :: c ++ 10 :: r) = 10 :: r) by (cbn; now apply adv_char_line). rewrite E.
  apply (blanks_fuel (length (47 :: 47 :: c ++ 10 :: r)) r). cbn [length]. rewrite app_length. cbn [length]. lia.
Qed.
(** No return, or one that starts a newline. *)
Definition crok (r : list Z) : Prop := hd 0 r = 13 -> exists q, r = 13 :: 10 :: q.
Lemma blanks_block c r : (forall a b, c <> a ++ 42 :: 47 :: b) -> crok r ->
  blanks (47 :: 42 :: c ++ 42 :: 47 :: r) = blanks r.
Proof.
  intros H CR. rewrite blanks_once.
  change (spaces (47 :: 42 :: c ++ 42 :: 47 :: r)) with (47 :: 42 :: c ++ 42 :: 47 :: r).
  change (is_single (47 :: 42 :: c ++ 42 :: 47 :: r)) with false.
  change (is_start (47 :: 42 :: c ++ 42 :: 47 :: r)) with true. cbn match.
  unfold end_comment. cbn [tl length].
  rewrite to_end_block; [|intros (a & b & ->); exact (H a b eq_refl)|lia]. cbn [rbind].
  change (is_end (42 :: 47 :: r)) with true. cbn match. cbn [tl].
  unfold brest. rewrite app_length. cbn [length].
  destruct r as [|x r]; [apply (blanks_fuel _ []); cbn; lia|].
  destruct (Z.eqb_spec x 13) as [->|Hx].
  - destruct (CR eq_refl) as [q E]. injection E as ->. rewrite blanks_crnl. apply (blanks_fuel _ q). cbn [length]. lia.
  - rewrite skip1_eq by exact Hx. cbn [hd tl]. destruct (Z.eqb_spec x 10) as [->|Hx'].
    + rewrite blanks_nl. apply blanks_fuel. cbn. lia.
    + apply blanks_fuel. cbn. lia.
Qed.
Lemma ws_crok w r : ws w -> crok r -> crok (w ++ r).
Proof. intros W C. destruct W; cbn [app]; auto; intros E; cbn in E; try lia. eauto. Qed.
Lemma ws_skip w r : ws w -> crok r -> blanks (w ++ r) = blanks r.
Proof.
  intros W C. induction W; cbn [app].
  - reflexivity.
  - now rewrite blanks_space by auto.
  - now rewrite blanks_space by auto.
  - now rewrite blanks_nl.
  - now rewrite blanks_crnl.
  - rewrite <- app_assoc. cbn [app]. now rewrite blanks_line.
  - rewrite <- app_assoc. cbn [app]. rewrite blanks_block; auto using ws_crok.
Qed.
Lemma solid_crok c r : solid c -> crok (c :: r).
Proof. intros (_ & _ & _ & H & _) E. cbn in E. congruence. Qed.
Lemma solid_stay c r : solid c -> blanks (c :: r) = Ok (c :: r).
Proof.
  intros (H1 & H2 & H3 & H4 & H5). rewrite blanks_once.
  assert (E : spaces (c :: r) = c :: r).
  { cbn. destruct (Z.eqb_spec c 32), (Z.eqb_spec c 9); cbn; try congruence. }
  rewrite E. unfold is_single, is_start. cbn [hd]. destruct (Z.eqb_spec c 47); [congruence|]. cbn [andb].
  unfold brest. rewrite skip1_eq by exact H4. cbn [hd]. destruct (Z.eqb_spec c 10); [congruence|reflexivity].
Qed.
Lemma nil_stay : blanks [] = Ok [].
Proof. reflexivity. Qed.
Lemma ws_to w c r : ws w -> solid c -> blanks (w ++ c :: r) = Ok (c :: r).
Proof. intros W S. rewrite ws_skip by auto using solid_crok. now apply solid_stay. Qed.
Lemma ws_all w : ws w -> blanks w = Ok [].
Proof. intros W. rewrite <- (app_nil_r w). rewrite ws_skip; auto. intros E. discriminate. Qed.

(** ** Scalars *)
(** A value may end here. *)
Definition tail (r : list Z) : Prop := r = [] \/ endchar (hd 0 r) = true.

Lemma to_tok_word f : forall t r, (length (t ++ r) < f)%nat -> tail r ->
  Forall (fun c => endchar c = false /\ c <> 47) t -> to_tok f (t ++ r) = Ok r.
Proof.
  induction f as [|f IH]; intros t r Hf T F; [lia|].
  destruct t as [|c t]; cbn [app].
  - destruct r as [|c r]; [reflexivity|]. destruct T as [T|T]; [discriminate|]. cbn [hd] in T. cbn [to_tok].
    assert (c <> 47) by (intros ->; discriminate).
    unfold is_start, is_single. cbn [hd]. destruct (Z.eqb_spec c 47); [congruence|]. cbn [andb rbind hd].
    destruct (Z.eqb_spec c 47); [congruence|]. cbn [andb]. now rewrite T.
  - inversion F as [|? ? [H1 H2] F']; subst. cbn [to_tok].
    unfold is_start, is_single. cbn [hd]. destruct (Z.eqb_spec c 47); [congruence|]. cbn [andb rbind hd].
    destruct (Z.eqb_spec c 47); [congruence|]. cbn [andb]. rewrite H1. cbn [app length] in Hf. apply IH; auto. lia.
Qed.

Fixpoint bok (prev : Z) (s : list Z) : Prop :=
  match s with
  | [] => prev <> 92
  | c :: r => c <> 10 /\ c <> 13 /\ (c = 34 -> prev = 92) /\ bok c r
  end.
Lemma body_bok s : forall prev, ~ In 10 s -> ~ In 13 s ->
  (forall a b, s = a ++ 34 :: b -> a <> [] -> exists a', a = a' ++ [92]) ->
  (hd 0 s = 34 -> prev = 92) ->
  (forall a, s <> a ++ [92]) -> (s = [] -> prev <> 92) -> bok prev s.
Proof.
  induction s as [|c s IH]; intros prev H1 H2 H3 H4 H5 H6; cbn [bok]; [auto|].
  split; [intros ->; apply H1; cbn; auto|]. split; [intros ->; apply H2; cbn; auto|]. split; [exact H4|].
  apply IH.
  - intros K. apply H1. cbn; auto.
  - intros K. apply H2. cbn; auto.
  - intros a b E Ha. destruct (H3 (c :: a) b) as [a' Ea]; [now rewrite E|discriminate|].
    destruct a' as [|x a']; [injection Ea as -> ->; congruence|]. injection Ea as -> ->. now exists a'.
  - intros E. destruct s as [|x s]; [cbn in E; lia|]. cbn in E. subst x.
    destruct (H3 [c] s) as [a' Ea]; [reflexivity|discriminate|]. destruct a' as [|x [|]]; [|discriminate|discriminate].
    injection Ea as ->. reflexivity.
  - intros a E. apply (H5 (c :: a)). now rewrite E.
  - intros -> ->. apply (H5 []). reflexivity.
Qed.
Lemma str_body_ok s r : forall prev, bok prev s -> str_body prev (s ++ 34 :: r) = (s, 34 :: r).
Proof.
  induction s as [|c s IH]; intros prev B; cbn [app str_body].
  - cbn in B. destruct (Z.eqb_spec prev 92); [contradiction|reflexivity].
  - destruct B as (B1 & B2 & B3 & B4).
    assert ((c =? 10) || (c =? 13) || ((c =? 34) && negb (prev =? 92)) = false) as ->.
    { destruct (Z.eqb_spec c 10), (Z.eqb_spec c 13); try contradiction. cbn.
      destruct (Z.eqb_spec c 34) as [E|]; [|reflexivity]. rewrite (B3 E). reflexivity. }
    rewrite IH by exact B4. reflexivity.
Qed.
Lemma read_string_ok s r q : body_ok s -> blanks r = Ok q -> read_string (34 :: s ++ 34 :: r) = Ok (s, q).
Proof.
  intros (B1 & B2 & B3 & B4) E. unfold read_string. cbn [hd tl]. replace (34 =? 34) with true by reflexivity.
  rewrite str_body_ok.
  - cbn [hd tl]. replace (34 =? 34) with true by reflexivity. rewrite E. reflexivity.
  - apply body_bok; auto; try lia.
    + intros a b Eb _. eauto.
    + intros K. destruct s as [|x s]; [cbn in K; lia|]. cbn in K. subst x. destruct (B3 [] s eq_refl) as [a' Ea].
      destruct a'; discriminate.
Qed.

Lemma prefix_app p t r : (forall u, t <> p ++ u) -> (forall u v, p = t ++ u -> u <> [] -> r <> u ++ v) -> prefix p (t ++ r) = false.
Proof.
  intros H1 H2. destruct (prefix p (t ++ r)) eqn:E; auto. apply prefix_spec in E as [u E].
  destruct (Nat.le_gt_cases (length p) (length t)) as [L|L].
  - exfalso. apply (H1 (skipn (length p) t)).
    rewrite <- (firstn_skipn (length p) t) at 1. f_equal.
    apply (f_equal (firstn (length p))) in E. rewrite firstn_app in E. replace (length p - length t)%nat with 0%nat in E by lia.
    cbn in E. rewrite app_nil_r in E. rewrite firstn_app, Nat.sub_diag, firstn_all in E. cbn in E. now rewrite app_nil_r in E.
  - exfalso. assert (Ep : p = t ++ skipn (length t) p).
    { rewrite <- (firstn_skipn (length t) p) at 1. f_equal. apply (f_equal (firstn (length t))) in E.
      rewrite firstn_app, Nat.sub_diag, firstn_all in E. cbn in E. rewrite app_nil_r in E.
      rewrite firstn_app in E. replace (length t - length p)%nat with 0%nat in E by lia. cbn in E. now rewrite app_nil_r in E. }
    apply (H2 (skipn (length t) p) u Ep).
    + intros K. rewrite K, app_nil_r in Ep. subst. lia.
    + rewrite Ep in E at 1. rewrite <- app_assoc in E. now apply app_inv_head in E.
Qed.
(** A prefix without end characters does not reach into what follows a word. *)
Lemma prefix_word p t r : Forall (fun c => endchar c = false) p -> tail r -> (forall u, t <> p ++ u) -> prefix p (t ++ r) = false.
Proof.
  intros F T H. apply prefix_app; auto. intros u v Ep Hu Er. destruct u as [|c u]; [congruence|].
  rewrite Ep in F. apply Forall_app in F as [_ F]. inversion F; subst. destruct T as [T|T]; [discriminate|].
  cbn in T. congruence.
Qed.

(** What is built field by field is what the specification says. *)
Lemma names_in l k : In k (names_of l) <-> In k l.
Proof.
  induction l as [|a l IH]; cbn; [tauto|]. rewrite filter_In, IH.
  destruct (list_eq_dec Z.eq_dec k a) as [->|]; [tauto|]. split; [tauto|]. intros [->|]; [tauto|auto].
Qed.
Lemma names_nodup l : NoDup (names_of l).
Proof.
  induction l as [|a l IH]; cbn; constructor; [|now apply NoDup_filter].
  rewrite filter_In. intros (_ & H). now destruct (list_eq_dec Z.eq_dec a a).
Qed.
Lemma names_snoc l k : names_of (l ++ [k]) = if in_dec (list_eq_dec Z.eq_dec) k l then names_of l else names_of l ++ [k].
Proof.
  induction l as [|a l IH]; [reflexivity|]. cbn [app names_of]. rewrite IH.
  destruct (in_dec _ k l) as [I|I]; destruct (in_dec _ k (a :: l)) as [J|J]; auto.
  - exfalso. apply J. now right.
  - destruct J as [->|J]; [|contradiction]. rewrite filter_app. cbn [filter].
    destruct (list_eq_dec Z.eq_dec k k); [|congruence]. now rewrite app_nil_r.
  - rewrite filter_app. cbn [filter app]. destruct (list_eq_dec Z.eq_dec k a) as [->|]; [|reflexivity]. exfalso. apply J. now left.
Qed.
Lemma last_snoc l k v k' d : last_of k' (l ++ [(k, v)]) d = if list_eq_dec Z.eq_dec k k' then v else last_of k' l d.
Proof. revert d. induction l as [|(a, x) l IH]; intros d; cbn [app last_of]; [reflexivity|]. apply IH. Qed.
Lemma upsert_map k v (g : list Z -> jval) ks : NoDup ks ->
  upsert k v (List.map (fun x => (x, g x)) ks)
  = List.map (fun x => (x, if list_eq_dec Z.eq_dec k x then v else g x))
      (if in_dec (list_eq_dec Z.eq_dec) k ks then ks else ks ++ [k]).
Proof.
  induction ks as [|a ks IH]; intros N.
  - cbn. now destruct (list_eq_dec Z.eq_dec k k).
  - inversion N as [|? ? Na Nk]; subst. cbn [List.map upsert]. unfold leqb.
    destruct (list_eq_dec Z.eq_dec k a) as [->|D].
    + destruct (in_dec _ a (a :: ks)) as [_|J]; [|exfalso; apply J; now left]. cbn [List.map].
      destruct (list_eq_dec Z.eq_dec a a); [|congruence]. f_equal. apply map_ext_in. intros x Hx.
      destruct (list_eq_dec Z.eq_dec a x) as [->|]; [contradiction|reflexivity].
    + rewrite (IH Nk). destruct (in_dec _ k ks) as [I|I]; destruct (in_dec _ k (a :: ks)) as [J|J].
      * cbn [List.map]. now destruct (list_eq_dec Z.eq_dec k a).
      * exfalso. apply J. now right.
      * destruct J as [->|J]; contradiction.
      * cbn [List.map app]. now destruct (list_eq_dec Z.eq_dec k a).
Qed.
Lemma fields_fold l : fold_left (fun acc kv => upsert (fst kv) (snd kv) acc) l [] = fields_of l.
Proof.
  induction l as [|(k, v) l IH] using rev_ind; [reflexivity|].
  rewrite fold_left_app, IH. cbn [fold_left fst snd]. unfold fields_of. rewrite upsert_map by apply names_nodup.
  rewrite map_app. cbn [List.map fst]. rewrite names_snoc.
  assert (E : (if in_dec (list_eq_dec Z.eq_dec) k (names_of (List.map fst l)) then names_of (List.map fst l)
               else names_of (List.map fst l) ++ [k])
              = (if in_dec (list_eq_dec Z.eq_dec) k (List.map fst l) then names_of (List.map fst l)
               else names_of (List.map fst l) ++ [k])).
  { destruct (in_dec _ k (names_of _)) as [I|I]; destruct (in_dec _ k (List.map fst l)) as [J|J]; auto; exfalso.
    - apply J. now apply names_in.
    - apply I. now apply names_in. }
  rewrite E. apply map_ext. intros x. now rewrite last_snoc.
Qed.

Section Gram.
  Variable num : list Z -> option f64.

  Lemma word_scalar t r : word_ok t -> tail r ->
    j_scalar num (t ++ r) = Ok (match num t with Some f => JF f | None => JU end, r).
  Proof.
    intros (H0 & H1 & H2 & H3 & H4 & H5 & H6 & H7) T. unfold j_scalar.
    assert (Eh : hd 0 (t ++ r) = hd 0 t) by (destruct t; [congruence|reflexivity]).
    rewrite Eh. destruct (Z.eqb_spec (hd 0 t) 34); [contradiction|].
    rewrite prefix_word; [|repeat constructor|exact T|exact H6].
    rewrite prefix_word; [|repeat constructor|exact T|exact H7].
    rewrite to_tok_word; [|lia|exact T|].
    - cbn [rbind]. replace (length (t ++ r) - length r)%nat with (length t) by (rewrite app_length; lia).
      rewrite firstn_app, Nat.sub_diag, firstn_all. cbn [firstn]. rewrite app_nil_r.
      destruct (length t) eqn:El; [destruct t; [congruence|discriminate]|]. rewrite <- El.
      destruct (Z.leb_spec NUMBUF (Z.of_nat (length t))); [unfold NUMBUF, zlen in *; lia|reflexivity].
    - eapply Forall_impl; [|exact H2]. cbn. intros c (A1 & A2 & A3 & A4 & A5 & A6 & A7 & A8). split; auto.
      unfold endchar. apply Z.eqb_neq in A1, A2, A3, A4, A5, A6, A7. now rewrite A1, A2, A3, A4, A5, A6, A7.
  Qed.

  (** ** First characters *)
  Lemma word_solid t : word_ok t -> exists c u, t = c :: u /\ solid c /\ c <> 93 /\ c <> 125 /\ c <> 91 /\ c <> 123.
  Proof.
    intros (H0 & H1 & H2 & H3 & H4 & H5 & H6 & H7). destruct t as [|c u]; [congruence|].
    exists c, u. inversion H2 as [|? ? A ?]; subst. cbn in H4, H5. unfold solid. intuition.
  Qed.
  Lemma jtext_head t v : jtext num t v -> exists c u, t = c :: u /\ solid c /\ c <> 93 /\ c <> 125.
  Proof.
    intros H. destruct H; try (eexists _, _; split; [reflexivity|]; unfold solid; lia).
    - destruct (word_solid t H) as (c & u & E & S1 & S2 & S3 & _). eauto 6.
    - destruct (word_solid t H) as (c & u & E & S1 & S2 & S3 & _). eauto 6.
  Qed.
  Lemma jitems_head t l : jitems num t l -> exists c u, t = c :: u /\ solid c /\ c <> 93 /\ c <> 125.
  Proof.
    intros H. destruct H as [? ? ? H|? ? ? ? H|? ? ? ? ? ? H];
      destruct (jtext_head _ _ H) as (c & u & -> & S); cbn [app]; eauto.
  Qed.
  Lemma jfields_head t l : jfields num t l -> exists u, t = 34 :: u.
  Proof. intros H. destruct H; eauto. Qed.

  Lemma aft_tail w c r : aft w -> endchar c = true -> tail (w ++ c :: r).
  Proof.
    intros [W H] E. right. destruct W; cbn [app hd]; auto; cbn [hd] in H; congruence.
  Qed.

  Scheme jtext_ind' := Minimality for jtext Sort Prop
  with jitems_ind' := Minimality for jitems Sort Prop
  with jfields_ind' := Minimality for jfields Sort Prop.
  Combined Scheme jall_ind from jtext_ind', jitems_ind', jfields_ind'.

  Definition Pt (t : list Z) (v : jval) : Prop := forall f r q, tail r -> blanks r = Ok q -> blanks q = Ok q ->
    (2 * length (t ++ r) + 2 <= f)%nat -> exists r', j_val num f (t ++ r) = Ok (v, r') /\ blanks r' = Ok q.
  Definition Pi (t : list Z) (l : list jval) : Prop := forall f r acc,
    (2 * length (t ++ 93%Z :: r) + 3 <= f)%nat -> j_items num f (t ++ 93 :: r) acc = Ok (JA (acc ++ l), r).
  Definition Pf (t : list Z) (l : list (list Z * jval)) : Prop := forall f r acc,
    (2 * length (t ++ 125%Z :: r) + 1 <= f)%nat ->
    j_fields num f (t ++ 125 :: r) acc
    = Ok (JO (fold_left (fun acc kv => upsert (fst kv) (snd kv) acc) l acc), r).

  Lemma sol44 : solid 44. Proof. unfold solid; lia. Qed.
  Lemma sol93 : solid 93. Proof. unfold solid; lia. Qed.
  Lemma sol125 : solid 125. Proof. unfold solid; lia. Qed.
  Lemma sol58 : solid 58. Proof. unfold solid; lia. Qed.

  (** A scalar in place. *)
  Lemma val_scalar f c u : solid c -> c <> 91 -> c <> 123 -> j_val num (S f) (c :: u) = j_scalar num (c :: u).
  Proof.
    intros S H1 H2. cbn [j_val]. rewrite solid_stay by exact S. cbn [rbind hd].
    destruct (Z.eqb_spec c 91); [contradiction|]. destruct (Z.eqb_spec c 123); [contradiction|reflexivity].
  Qed.
  Lemma val_ws f w s : ws w -> crok s -> j_val num f (w ++ s) = j_val num f s.
  Proof. intros W C. destruct f; [reflexivity|]. cbn [j_val]. now rewrite ws_skip. Qed.

  Lemma gram_ok : (forall t v, jtext num t v -> Pt t v) /\ (forall t l, jitems num t l -> Pi t l) /\
    (forall t l, jfields num t l -> Pf t l).
  Proof.
    apply jall_ind.
    - intros f r q T B Bq Hf. destruct f as [|f]; [lia|]. exists r. split; auto.
    - intros f r q T B Bq Hf. destruct f as [|f]; [lia|]. exists r. split; auto.
    - intros s Bs f r q T B Bq Hf. destruct f as [|f]; [lia|]. exists q. split; auto. cbn [app].
      rewrite val_scalar; [|unfold solid; lia|lia|lia]. rewrite <- app_assoc. cbn [app]. unfold j_scalar. cbn [hd].
      replace (34 =? 34) with true by reflexivity. rewrite (read_string_ok s r q Bs B). reflexivity.
    - intros t x W E f r q T B Bq Hf. destruct f as [|f]; [lia|]. exists r. split; auto.
      destruct (word_solid t W) as (c & u & Et & S & _ & _ & N1 & N2). rewrite Et at 1. cbn [app].
      rewrite val_scalar by assumption. change (c :: u ++ r) with ((c :: u) ++ r). rewrite <- Et.
      rewrite word_scalar by assumption. now rewrite E.
    - intros t W E f r q T B Bq Hf. destruct f as [|f]; [lia|]. exists r. split; auto.
      destruct (word_solid t W) as (c & u & Et & S & _ & _ & N1 & N2). rewrite Et at 1. cbn [app].
      rewrite val_scalar by assumption. change (c :: u ++ r) with ((c :: u) ++ r). rewrite <- Et.
      rewrite word_scalar by assumption. now rewrite E.
    - intros w W f r q T B Bq Hf. destruct f as [|f]; [lia|]. exists r. split; auto. cbn [app j_val].
      rewrite solid_stay by (unfold solid; lia). cbn [rbind hd tl]. cbn [Z.eqb Pos.eqb]. rewrite <- app_assoc. cbn [app].
      rewrite ws_to by auto using sol93. reflexivity.
    - intros w t l W D IH f r q T B Bq Hf. destruct f as [|f]; [lia|]. exists r. split; auto. cbn [app j_val].
      rewrite solid_stay by (unfold solid; lia). cbn [rbind hd tl]. cbn [Z.eqb Pos.eqb]. rewrite <- !app_assoc. cbn [app].
      destruct (jitems_head t l D) as (c & u & Et & S & N & _). rewrite Et at 1. cbn [app]. rewrite ws_to by assumption.
      cbn [rbind hd]. destruct (Z.eqb_spec c 93); [contradiction|].
      change (c :: u ++ 93 :: r) with ((c :: u) ++ 93 :: r). rewrite <- Et. apply (IH f r []).
      cbn in Hf |- *. rewrite !app_length in *. cbn in *. lia.
    - intros w W f r q T B Bq Hf. destruct f as [|f]; [lia|]. exists r. split; auto. cbn [app j_val].
      rewrite solid_stay by (unfold solid; lia). cbn [rbind hd tl]. cbn [Z.eqb Pos.eqb]. rewrite <- app_assoc. cbn [app].
      rewrite ws_to by auto using sol125. reflexivity.
    - intros w t l W D IH f r q T B Bq Hf. destruct f as [|f]; [lia|]. exists r. split; auto. cbn [app j_val].
      rewrite solid_stay by (unfold solid; lia). cbn [rbind hd tl]. cbn [Z.eqb Pos.eqb]. rewrite <- !app_assoc. cbn [app].
      destruct (jfields_head t l D) as (u & Et). rewrite Et at 1. cbn [app]. rewrite ws_to by (auto; unfold solid; lia).
      cbn [rbind hd]. cbn [Z.eqb Pos.eqb].
      change (34 :: u ++ 125 :: r) with ((34 :: u) ++ 125 :: r). rewrite <- Et. rewrite <- fields_fold. apply (IH f r []).
      cbn in Hf |- *. rewrite !app_length in *. cbn in *. lia.
    - intros t v w D IH A f r acc Hf. destruct f as [|f]; [lia|]. cbn [j_items]. rewrite <- app_assoc.
      destruct (IH f (w ++ 93 :: r) (93 :: r)) as (r' & E1 & E2).
      + now apply aft_tail.
      + apply ws_to; [apply A|apply sol93].
      + apply solid_stay, sol93.
      + rewrite <- app_assoc in Hf. lia.
      + rewrite E1. cbn [rbind fst snd]. rewrite E2. reflexivity.
    - intros t v w w' D IH A W f r acc Hf. destruct f as [|f]; [lia|]. cbn [j_items]. rewrite <- !app_assoc. cbn [app].
      destruct (IH f (w ++ 44 :: w' ++ 93 :: r) (44 :: w' ++ 93 :: r)) as (r' & E1 & E2).
      + now apply aft_tail.
      + apply ws_to; [apply A|apply sol44].
      + apply solid_stay, sol44.
      + rewrite <- !app_assoc in Hf. cbn [app] in Hf. lia.
      + rewrite E1. cbn [rbind fst snd]. rewrite E2. cbn [rbind hd tl]. cbn [Z.eqb Pos.eqb].
        rewrite ws_to by auto using sol93. reflexivity.
    - intros t v w w' ts l D IH A W Ds IHs f r acc Hf. destruct f as [|f]; [lia|]. cbn [j_items].
      rewrite <- !app_assoc. cbn [app]. rewrite <- app_assoc.
      destruct (IH f (w ++ 44 :: w' ++ ts ++ 93 :: r) (44 :: w' ++ ts ++ 93 :: r)) as (r' & E1 & E2).
      + now apply aft_tail.
      + apply ws_to; [apply A|apply sol44].
      + apply solid_stay, sol44.
      + rewrite <- !app_assoc in Hf. cbn [app] in Hf. rewrite <- app_assoc in Hf. lia.
      + rewrite E1. cbn [rbind fst snd]. rewrite E2. cbn [rbind hd tl]. cbn [Z.eqb Pos.eqb].
        destruct (jitems_head ts l Ds) as (c & u & Et & S & N & _). rewrite Et at 1. cbn [app].
        rewrite ws_to by assumption. cbn [rbind hd]. destruct (Z.eqb_spec c 93); [contradiction|].
        change (c :: u ++ 93 :: r) with ((c :: u) ++ 93 :: r). rewrite <- Et.
        rewrite IHs; [now rewrite <- app_assoc|]. rewrite !app_length in *. cbn in *. rewrite !app_length in *. lia.
    - intros k w1 w2 t v w Bk W1 W2 D IH A f r acc Hf. destruct f as [|f]; [lia|]. cbn [j_fields app].
      rewrite <- !app_assoc. cbn [app]. rewrite <- !app_assoc. cbn [app]. rewrite <- !app_assoc.
      rewrite (read_string_ok k _ (58 :: w2 ++ t ++ w ++ 125 :: r) Bk) by (apply ws_to; auto using sol58).
      cbn [rbind fst snd hd tl]. cbn [Z.eqb Pos.eqb].
      destruct (jtext_head t v D) as (c & u & Et & S & _).
      assert (EW : blanks (w2 ++ t ++ w ++ 125 :: r) = Ok (t ++ w ++ 125 :: r)).
      { rewrite Et. cbn [app]. now apply ws_to. }
      rewrite EW. cbn [rbind].
      destruct (IH f (w ++ 125 :: r) (125 :: r)) as (r' & E1 & E2).
      + now apply aft_tail.
      + apply ws_to; [apply A|apply sol125].
      + apply solid_stay, sol125.
      + cbn in Hf. rewrite !app_length in *. cbn in *. rewrite !app_length in *. cbn in *. rewrite !app_length in *. lia.
      + rewrite E1. cbn [rbind fst snd]. rewrite E2. reflexivity.
    - intros k w1 w2 t v w w' Bk W1 W2 D IH A W f r acc Hf. destruct f as [|f]; [lia|]. cbn [j_fields app].
      rewrite <- !app_assoc. cbn [app]. rewrite <- !app_assoc. cbn [app]. rewrite <- !app_assoc. cbn [app].
      rewrite (read_string_ok k _ (58 :: w2 ++ t ++ w ++ 44 :: w' ++ 125 :: r) Bk) by (apply ws_to; auto using sol58).
      cbn [rbind fst snd hd tl]. cbn [Z.eqb Pos.eqb].
      destruct (jtext_head t v D) as (c & u & Et & S & _).
      assert (EW : blanks (w2 ++ t ++ w ++ 44 :: w' ++ 125 :: r) = Ok (t ++ w ++ 44 :: w' ++ 125 :: r)).
      { rewrite Et. cbn [app]. now apply ws_to. }
      rewrite EW. cbn [rbind].
      destruct (IH f (w ++ 44 :: w' ++ 125 :: r) (44 :: w' ++ 125 :: r)) as (r' & E1 & E2).
      + now apply aft_tail.
      + apply ws_to; [apply A|apply sol44].
      + apply solid_stay, sol44.
      + cbn in Hf. repeat (rewrite !app_length in *; cbn in *). lia.
      + rewrite E1. cbn [rbind fst snd]. rewrite E2. cbn [rbind hd tl]. cbn [Z.eqb Pos.eqb].
        rewrite ws_to by auto using sol125. reflexivity.
    - intros k w1 w2 t v w w' ts l Bk W1 W2 D IH A W Ds IHs f r acc Hf. destruct f as [|f]; [lia|]. cbn [j_fields app].
      rewrite <- !app_assoc. cbn [app]. rewrite <- !app_assoc. cbn [app]. rewrite <- !app_assoc. cbn [app]. rewrite <- !app_assoc.
      rewrite (read_string_ok k _ (58 :: w2 ++ t ++ w ++ 44 :: w' ++ ts ++ 125 :: r) Bk) by (apply ws_to; auto using sol58).
      cbn [rbind fst snd hd tl]. cbn [Z.eqb Pos.eqb].
      destruct (jtext_head t v D) as (c & u & Et & S & _).
      assert (EW : blanks (w2 ++ t ++ w ++ 44 :: w' ++ ts ++ 125 :: r) = Ok (t ++ w ++ 44 :: w' ++ ts ++ 125 :: r)).
      { rewrite Et. cbn [app]. now apply ws_to. }
      rewrite EW. cbn [rbind].
      destruct (IH f (w ++ 44 :: w' ++ ts ++ 125 :: r) (44 :: w' ++ ts ++ 125 :: r)) as (r' & E1 & E2).
      + now apply aft_tail.
      + apply ws_to; [apply A|apply sol44].
      + apply solid_stay, sol44.
      + cbn in Hf. repeat (rewrite !app_length in *; cbn in *). lia.
      + rewrite E1. cbn [rbind fst snd]. rewrite E2. cbn [rbind hd tl]. cbn [Z.eqb Pos.eqb].
        destruct (jfields_head ts l Ds) as (u2 & Et2). rewrite Et2 at 1. cbn [app].
        rewrite ws_to by (auto; unfold solid; lia). cbn [rbind hd]. cbn [Z.eqb Pos.eqb].
        change (34 :: u2 ++ 125 :: r) with ((34 :: u2) ++ 125 :: r). rewrite <- Et2.
        rewrite IHs; [reflexivity|]. cbn in Hf. repeat (rewrite !app_length in *; cbn in *). lia.
  Qed.

  Lemma parse_text w t v r q : ws w -> jtext num t v -> tail r -> blanks r = Ok q -> blanks q = Ok q ->
    j_parse num (w ++ t ++ r) = Ok v.
  Proof.
    intros W D T B Bq. unfold j_parse. destruct gram_ok as [H _].
    rewrite val_ws; auto.
    - destruct (H t v D (2 * length (w ++ t ++ r) + 2)%nat r q T B Bq) as (r' & -> & _); [|reflexivity].
      rewrite !app_length. lia.
    - destruct (jtext_head t v D) as (c & u & -> & S & _). now apply solid_crok.
  Qed.
End Gram.
