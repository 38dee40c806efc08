(** Proofs about iterators and for-in loops. *)
From Coq Require Import ZArith List Bool Lia.
From Verif Require Import Base FloatModel ListModel MapModel ExprModel VmModel ExprSpec StmtModel StmtSpec StmtProofs
  IterModel IterSpec.
Import ListNotations.
Local Open Scope Z_scope.

Section Proofs.
Variable X : Type.
Variable R : rest X.
Notation S_ := (ISem R).
Notation world := (iworld X).

Lemma var_eqb_refl : forall x, var_eqb x x = true.
Proof. intros []; apply Nat.eqb_refl. Qed.
Lemma var_eqb_local : forall x y, x <> y -> var_eqb (Local x) (Local y) = false.
Proof. intros x y H. apply Nat.eqb_neq. exact H. Qed.

(** ** One question to the iterator. *)
Lemma ask_eq : forall it k m n w, hidden X it n w ->
  ask S_ it k m w = ebind (i_call m (VMember k n) w) (fun vs w2 => EOk (fit S_ m vs) w2).
Proof. intros it k m n w H. unfold ask. cbn [itload itcall vget ISem]. unfold hidden in H. rewrite H. reflexivity. Qed.

Lemma more_at : forall it n p b w, hidden X it n w -> iters w n = Some p -> it_end p w = EOk b w ->
  more S_ it w = EOk (negb b) w.
Proof.
  intros it n p b w H Hp He. unfold more. rewrite (ask_eq it ItEnd 1 n w H).
  unfold i_call. rewrite Hp, He. reflexivity.
Qed.
Lemma more_gone : forall it n p w, hidden X it n w -> iters w n = Some p -> it_end p w = EErr w ->
  more S_ it w = EErr w.
Proof.
  intros it n p w H Hp He. unfold more. rewrite (ask_eq it ItEnd 1 n w H).
  unfold i_call. rewrite Hp, He. reflexivity.
Qed.
Lemma advance_at : forall it n p p' w, hidden X it n w -> iters w n = Some p -> it_next p w = EOk p' w ->
  advance S_ it w = EOk tt (set_iter n p' w).
Proof.
  intros it n p p' w H Hp He. unfold advance. rewrite (ask_eq it ItNext 0 n w H).
  unfold i_call. rewrite Hp, He. reflexivity.
Qed.
Lemma advance_err : forall it n p w w', hidden X it n w -> iters w n = Some p -> it_next p w = EErr w' ->
  advance S_ it w = EErr w'.
Proof.
  intros it n p w w' H Hp He. unfold advance. rewrite (ask_eq it ItNext 0 n w H).
  unfold i_call. rewrite Hp, He. reflexivity.
Qed.
Lemma deliver_eq : forall m v k, (3 <= m)%nat ->
  deliver m (native_returns [v; k] VUndef) = repeat VUndef (m - 3) ++ [v; k; VUndef].
Proof.
  intros m v k H. unfold deliver, native_returns. cbn [rev app length].
  assert (Rr : forall n (a : ival), rev (repeat a n) = repeat a n).
  { induction n as [|n IH]; intros a; [reflexivity|]. cbn [repeat rev]. rewrite IH. symmetry. apply repeat_cons. }
  change (rev (VUndef :: k :: v :: repeat VUndef (m - 3))) with
    (((rev (repeat VUndef (m - 3)) ++ [v]) ++ [k]) ++ [VUndef]).
  rewrite Rr, <- !app_assoc. cbn [app]. apply firstn_all2. rewrite app_length, repeat_length. cbn [length]. lia.
Qed.
Lemma assign_app : forall l1 l2 w w1, assign_all S_ l1 w = EOk tt w1 ->
  assign_all S_ (l1 ++ l2) w = assign_all S_ l2 w1.
Proof.
  induction l1 as [|(l, v) l1 IH]; intros l2 w w1 E; [inversion E; reflexivity|]. cbn [assign_all app] in *.
  destruct (assign S_ A_SET l v w) as [v' w'|w']; cbn [ebind] in *; [|discriminate]. apply IH. exact E.
Qed.
Lemma combine_app : forall A B (l1 l2 : list A) (k1 k2 : list B), length l1 = length k1 ->
  combine (l1 ++ l2) (k1 ++ k2) = combine l1 k1 ++ combine l2 k2.
Proof.
  induction l1 as [|a l1 IH]; intros l2 [|b k1] k2 H; try discriminate; [reflexivity|].
  cbn [app combine]. f_equal. apply IH. inversion H. reflexivity.
Qed.
Lemma assign_undef : forall l w,
  assign_all S_ (combine (rev (List.map (fun x => lvar S_ (Local x)) l)) (repeat VUndef (length l))) w =
  EOk tt (fold_right (fun u w' => set_var (Local u) VUndef w') w l).
Proof.
  induction l as [|x l IH]; intros w; [reflexivity|]. cbn [List.map rev length fold_right repeat].
  rewrite repeat_cons, combine_app by (rewrite rev_length, map_length, repeat_length; reflexivity).
  erewrite assign_app; [|apply IH]. reflexivity.
Qed.
Lemma fetch_at : forall xs it n p k v w, (1 <= length xs)%nat -> hidden X it n w -> iters w n = Some p ->
  it_get_vals p w = EOk [v; k] w -> fetch S_ xs it w = EOk tt (give X xs k v w).
Proof.
  intros xs it n p k v w Hx H Hp He. unfold fetch. rewrite (ask_eq it ItGet (length xs) n w H).
  unfold i_call. rewrite Hp, He. cbn [ebind].
  destruct xs as [|x [|y [|z l]]]; cbn [length] in Hx; try lia; try reflexivity.
  rewrite deliver_eq by (cbn [length]; lia).
  replace (fit S_ (length (x :: y :: z :: l)) (repeat VUndef (length (x :: y :: z :: l) - 3) ++ [v; k; VUndef]))
    with (repeat VUndef (length l) ++ [v; k; VUndef]).
  2:{ unfold fit. cbn [length]. replace (S (S (S (length l))) - 3)%nat with (length l) by lia.
      rewrite firstn_app, firstn_all2 by (rewrite app_length, repeat_length; cbn [length]; lia).
      rewrite app_length, repeat_length. cbn [length]. replace (S (S (S (length l))) - (length l + 3))%nat with O by lia.
      cbn [firstn]. symmetry. apply app_nil_r. }
  cbn [List.map rev]. rewrite <- !app_assoc. cbn [app].
  rewrite combine_app by (rewrite rev_length, map_length, repeat_length; reflexivity).
  erewrite assign_app; [|apply assign_undef]. reflexivity.
Qed.

Lemma undef_keeps : forall l it n (w : world), ~ In it l -> hidden X it n w ->
  hidden X it n (fold_right (fun u w' => set_var (Local u) VUndef w') w l).
Proof.
  induction l as [|x l IH]; intros it n w Hn H; [exact H|]. cbn [In fold_right] in *. unfold hidden. cbn [ivars set_var].
  rewrite var_eqb_local by (intros ->; tauto). apply IH; tauto.
Qed.
Lemma give_keeps : forall xs it n k v w, ~ In it xs ->
  hidden X it n w -> hidden X it n (give X xs k v w).
Proof.
  intros xs it n k v w Hn H. unfold give.
  destruct xs as [|x [|y [|z l]]]; auto; unfold hidden; cbn [In ivars set_var] in *;
    rewrite !var_eqb_local by (intros ->; tauto); auto.
  apply undef_keeps; tauto.
Qed.
Lemma give_heap : forall xs k v w, iheap (give X xs k v w) = iheap w.
Proof. intros [|x [|y [|z l]]] k v w; try reflexivity. cbn. induction l; auto. Qed.
Lemma give_iters : forall xs k v w, iters (give X xs k v w) = iters w.
Proof. intros [|x [|y [|z l]]] k v w; try reflexivity. cbn. induction l; auto. Qed.
Lemma give_ext : forall xs k v w, iext (give X xs k v w) = iext w.
Proof. intros [|x [|y [|z l]]] k v w; try reflexivity. cbn. induction l; auto. Qed.

(** ** The body together with the assignment of the variables. *)
Definition with_fetch (xs : list nat) (it : nat) (body : sden S_) : sden S_ :=
  fun f w => then_ S_ (Some (of_unit S_ (fetch S_ xs it w))) (body f).
Lemma fetched : forall xs it body w w', fetch S_ xs it w = EOk tt w' ->
  forall f, with_fetch xs it body f w = body f w'.
Proof. intros xs it body w w' E f. unfold with_fetch. rewrite E. reflexivity. Qed.
Lemma fetched_term : forall xs it body w w' r, fetch S_ xs it w = EOk tt w' ->
  terminates S_ body w' r -> terminates S_ (with_fetch xs it body) w r.
Proof. intros xs it body w w' r E (f & H). exists f. rewrite (fetched _ _ _ _ _ E). exact H. Qed.
Lemma with_fetch_mono : forall xs it body, mono S_ body -> mono S_ (with_fetch xs it body).
Proof.
  intros xs it body H f g w r Hle E. unfold with_fetch in *.
  destruct (fetch S_ xs it w); cbn [of_unit then_] in *; [eapply H; eauto | exact E].
Qed.

(** ** Positions of an iterator over an unchanged container. *)
Section Walk.
Variable m : map (list Z) ival.
Definition hop (o : option nat) : option nat := match o with Some n => next (heap (ring_of m)) n | None => None end.
Lemma iter_swap : forall j x, Nat.iter j hop (hop x) = hop (Nat.iter j hop x).
Proof. induction j as [|j IH]; intros x; [reflexivity|]. cbn [Nat.iter nat_rect]. f_equal. apply IH. Qed.
Lemma iter_loop_ne : forall fuel cur, iter_loop fuel m cur <> Some [].
Proof.
  intros [|fuel] cur; [discriminate|]. cbn [iter_loop].
  destruct (nkey m cur), (nval m cur), (next (heap (ring_of m)) cur) as [nx|]; try discriminate.
  destruct (eqo (first (ring_of m)) nx); [discriminate|]. destruct (iter_loop fuel m nx); discriminate.
Qed.
Lemma iter_loop_walk : forall fuel cur l, iter_loop fuel m cur = Some l ->
  forall j k v, nth_error l j = Some (k, v) ->
  exists n nx, Nat.iter j hop (Some cur) = Some n /\ nkey m n = Some k /\ nval m n = Some v /\
    next (heap (ring_of m)) n = Some nx /\ eqo (first (ring_of m)) nx = (length l <=? S j)%nat.
Proof.
  induction fuel as [|fuel IH]; intros cur l E j k v Hj; [discriminate|]. cbn [iter_loop] in E.
  destruct (nkey m cur) as [k0|] eqn:Ek; [|discriminate].
  destruct (nval m cur) as [v0|] eqn:Ev; [|discriminate].
  destruct (next (heap (ring_of m)) cur) as [nx|] eqn:En; [|discriminate].
  destruct (eqo (first (ring_of m)) nx) eqn:Eq.
  - inversion E; subst. destruct j as [|[|j]]; cbn [nth_error] in Hj; try discriminate. inversion Hj; subst.
    exists cur, nx. repeat split; auto.
  - destruct (iter_loop fuel m nx) as [r|] eqn:Er; [|discriminate]. inversion E; subst. destruct j as [|j].
    + cbn [nth_error] in Hj. inversion Hj; subst. exists cur, nx. repeat split; auto.
      rewrite Eq. cbn [length]. destruct r; [exfalso; eapply iter_loop_ne; eauto | reflexivity].
    + cbn [nth_error] in Hj. destruct (IH nx r Er j k v Hj) as (n & nx' & H1 & H2 & H3 & H4 & H5).
      exists n, nx'. split; [|repeat split; auto].
      cbn [Nat.iter nat_rect]. change (hop (Nat.iter j hop (Some cur)) = Some n). rewrite <- iter_swap.
      cbn [hop]. rewrite En. exact H1.
Qed.
End Walk.

Lemma numbered_nth : forall vs j k v, nth_error (numbered vs) j = Some (k, v) <->
  nth_error vs j = Some v /\ k = VInt (Z.of_nat j).
Proof.
  intros vs. unfold numbered.
  assert (G : forall (vs : list ival) s j k v, nth_error (combine (List.map (fun i => VInt (Z.of_nat i)) (seq s (length vs))) vs) j = Some (k, v) <->
     nth_error vs j = Some v /\ k = VInt (Z.of_nat (s + j))).
  { clear vs. induction vs as [|a vs IH]; intros s j k v; cbn [length seq List.map combine].
    - destruct j; cbn; split; try discriminate; intros (H & _); discriminate.
    - destruct j as [|j]; cbn [nth_error].
      + rewrite Nat.add_0_r. split; [intros H; inversion H; auto | intros (H & ->); inversion H; auto].
      + rewrite IH, Nat.add_succ_comm. reflexivity. }
  intros j k v. apply (G vs 0%nat).
Qed.
Lemma numbered_len : forall vs, length (numbered vs) = length vs.
Proof. intros. unfold numbered. rewrite combine_length, map_length, seq_length. lia. Qed.

Lemma pos_start : forall c k es, entries k = Some es -> it_start c k = pos c k (length es) 0.
Proof.
  intros c k es E. destruct k as [l|s|m]; try reflexivity. cbn [it_start pos Nat.iter nat_rect]. cbn [entries] in E.
  unfold m_iterate in E. destruct (first (ring_of m)) as [f|].
  - destruct (iter_loop (S (brk m)) m f) as [l|] eqn:El; [|discriminate]. inversion E; subst.
    destruct l; [exfalso; eapply iter_loop_ne; eauto | reflexivity].
  - inversion E; subst. reflexivity.
Qed.
Lemma pos_end : forall c k es j (w : world), entries k = Some es -> iheap w c = Some k -> (j <= length es)%nat ->
  it_end (pos c k (length es) j) w = EOk (length es <=? j)%nat w.
Proof.
  intros c k es j w E H Hj. destruct k as [l|s|m]; cbn [pos it_end]; rewrite H; cbn [entries] in E.
  - inversion E; subst. rewrite numbered_len. reflexivity.
  - inversion E; subst. rewrite numbered_len, map_length. reflexivity.
  - reflexivity.
Qed.
Lemma pos_get : forall c k es j key v (w : world), entries k = Some es -> iheap w c = Some k ->
  nth_error es j = Some (key, v) -> it_get_vals (pos c k (length es) j) w = EOk [v; key] w.
Proof.
  intros c k es j key v w E H Hj. destruct k as [l|s|m]; cbn [pos it_get_vals]; rewrite H; cbn [entries] in E.
  - inversion E; subst. apply numbered_nth in Hj. destruct Hj as (Hj & ->).
    rewrite (nth_error_nth _ _ _ Hj). reflexivity.
  - inversion E; subst. apply numbered_nth in Hj. destruct Hj as (Hj & ->).
    rewrite nth_error_map in Hj. destruct (nth_error s j); inversion Hj. reflexivity.
  - assert (Hl : (j < length es)%nat) by (apply nth_error_Some; congruence).
    destruct (Nat.leb_spec (length es) j); [lia|].
    unfold m_iterate in E. destruct (first (ring_of m)) as [f|] eqn:Ef.
    + destruct (iter_loop (S (brk m)) m f) as [l|] eqn:El; [|discriminate]. inversion E; subst.
      rewrite nth_error_map in Hj. destruct (nth_error l j) as [(k0, v0)|] eqn:Ej; inversion Hj; subst.
      destruct (iter_loop_walk m _ _ _ El j _ _ Ej) as (n & nx & H1 & H2 & H3 & _).
      unfold hop in H1. rewrite H1, H2, H3. reflexivity.
    + inversion E; subst. destruct j; discriminate.
Qed.
Lemma pos_next : forall c k es j (w : world), entries k = Some es -> iheap w c = Some k -> (j < length es)%nat ->
  it_next (pos c k (length es) j) w = EOk (pos c k (length es) (S j)) w.
Proof.
  intros c k es j w E H Hj. destruct k as [l|s|m]; cbn [pos it_next]; rewrite H; cbn [entries] in E.
  - inversion E; subst. rewrite numbered_len in Hj. destruct (Nat.ltb_spec j (length l)); [reflexivity | lia].
  - inversion E; subst. rewrite numbered_len, map_length in Hj. destruct (Nat.ltb_spec j (length s)); [reflexivity | lia].
  - unfold m_iterate in E. destruct (first (ring_of m)) as [f|] eqn:Ef.
    + destruct (iter_loop (S (brk m)) m f) as [l|] eqn:El; [|discriminate]. inversion E; subst. rewrite map_length in *.
      destruct (nth_error l j) as [(k0, v0)|] eqn:Ej; [|apply nth_error_None in Ej; lia].
      destruct (iter_loop_walk m _ _ _ El j _ _ Ej) as (n & nx & H1 & _ & _ & H4 & H5).
      cbn [Nat.iter nat_rect]. unfold hop in H1. fold (Nat.iter j (fun o => match o with Some n => next (heap (ring_of m)) n | None => None end) (Some f)).
      rewrite H1, H4. rewrite Ef in H5. rewrite H5. reflexivity.
    + inversion E; subst. cbn in Hj. lia.
Qed.

(** ** The loop over an unchanged container. *)
Section Loop.
Variables (xs : list nat) (it n c : nat) (k : container) (es : list (ival * ival)) (body : sden S_).
Hypothesis Hxs : (1 <= length xs)%nat.
Hypothesis Hit : ~ In it xs.
Hypothesis Hes : entries k = Some es.
Hypothesis Hm : mono S_ body.
Hypothesis Hp : preserves X R body it n c k.

Notation len := (length es).
Definition here (j : nat) (w : world) : Prop :=
  hidden X it n w /\ iheap w c = Some k /\ iters w n = Some (pos c k len j).
Definition goto (j : nat) (w : world) : world := set_iter n (pos c k len j) w.

Lemma here_more : forall j w, here j w -> (j <= len)%nat -> more S_ it w = EOk (negb (len <=? j)%nat) w.
Proof. intros j w (H1 & H2 & H3) Hj. eapply more_at; eauto. apply pos_end; auto. Qed.
Lemma here_fetch : forall j key v w, here j w -> nth_error es j = Some (key, v) ->
  fetch S_ xs it w = EOk tt (give X xs key v w).
Proof. intros j key v w (H1 & H2 & H3) Hj. eapply fetch_at; eauto. eapply pos_get; eauto. Qed.
Lemma here_body : forall j key v w r w2, here j w -> terminates S_ body (give X xs key v w) r ->
  r = ONorm S_ w2 \/ r = OCont S_ w2 -> (j < len)%nat ->
  advance S_ it w2 = EOk tt (goto (S j) w2) /\ here (S j) (goto (S j) w2).
Proof.
  intros j key v w r w2 (H1 & H2 & H3) Ht Hr Hj. destruct Hp as (P1 & P2).
  assert (G1 : hidden X it n (give X xs key v w)) by (apply give_keeps; auto).
  assert (G2 : iheap (give X xs key v w) c = Some k) by (rewrite give_heap; exact H2).
  destruct (P1 _ _ _ G1 Ht Hr) as (Q1 & Q2). pose proof (P2 _ _ _ G1 G2 Ht Hr) as Q3.
  rewrite give_iters, H3 in Q2.
  split.
  - eapply advance_at; eauto. apply pos_next; auto.
  - split; [exact Q1|]. split; [exact Q3|]. cbn [goto set_iter iters]. rewrite Nat.eqb_refl. reflexivity.
Qed.

Lemma skip_cons : forall A (l : list A) j, (j < length l)%nat ->
  exists a, nth_error l j = Some a /\ skipn j l = a :: skipn (S j) l.
Proof.
  induction l as [|a l IH]; intros j H; [cbn in H; lia|]. destruct j as [|j].
  - exists a. split; reflexivity.
  - destruct (IH j) as (b & H1 & H2); [cbn in H; lia|]. exists b. split; [exact H1|].
    cbn [skipn] in *. exact H2.
Qed.

Lemma visits_runs : forall j l w r, visits X R body xs goto j l w r -> l = skipn j es -> (j <= len)%nat -> here j w ->
  while_runs S_ (more S_ it) (with_fetch xs it body) (advance S_ it) w r.
Proof.
  intros j l w r V. induction V as [j w|j key v l w r1 w2 r Ht Hr V IH|j key v l w w2 Ht|j key v l w vs w2 Ht|j key v l w w2 Ht];
    intros El Hj Hh.
  - assert (len <= j)%nat.
    { apply (f_equal (@length _)) in El. rewrite skipn_length in El. cbn in El. lia. }
    apply wr_stop. rewrite (here_more j w Hh Hj). destruct (Nat.leb_spec len j); [reflexivity | lia].
  - destruct (Nat.eq_dec j len) as [->|Hne]; [rewrite skipn_all in El; discriminate|].
    destruct (skip_cons _ es j ltac:(lia)) as (a & A1 & A2). rewrite A2 in El. inversion El; subst.
    destruct (here_body j key v w r1 w2 Hh Ht Hr ltac:(lia)) as (B1 & B2).
    eapply wr_next; [rewrite (here_more j w Hh Hj); destruct (Nat.leb_spec len j); [lia | reflexivity] | | exact Hr | exact B1 |].
    + eapply fetched_term; [eapply here_fetch; eauto | exact Ht].
    + apply IH; auto. lia.
  - destruct (Nat.eq_dec j len) as [->|Hne]; [rewrite skipn_all in El; discriminate|].
    destruct (skip_cons _ es j ltac:(lia)) as (a & A1 & A2). rewrite A2 in El. inversion El; subst.
    eapply wr_break; [rewrite (here_more j w Hh Hj); destruct (Nat.leb_spec len j); [lia | reflexivity]|].
    eapply fetched_term; [eapply here_fetch; eauto | exact Ht].
  - destruct (Nat.eq_dec j len) as [->|Hne]; [rewrite skipn_all in El; discriminate|].
    destruct (skip_cons _ es j ltac:(lia)) as (a & A1 & A2). rewrite A2 in El. inversion El; subst.
    eapply wr_return; [rewrite (here_more j w Hh Hj); destruct (Nat.leb_spec len j); [lia | reflexivity]|].
    eapply fetched_term; [eapply here_fetch; eauto | exact Ht].
  - destruct (Nat.eq_dec j len) as [->|Hne]; [rewrite skipn_all in El; discriminate|].
    destruct (skip_cons _ es j ltac:(lia)) as (a & A1 & A2). rewrite A2 in El. inversion El; subst.
    eapply wr_body_error; [rewrite (here_more j w Hh Hj); destruct (Nat.leb_spec len j); [lia | reflexivity]|].
    eapply fetched_term; [eapply here_fetch; eauto | exact Ht].
Qed.

Lemma loop_visits : forall f j w r, (j <= len)%nat -> here j w ->
  loop S_ (more S_ it) (with_fetch xs it body) (advance S_ it) f w = Some r ->
  visits X R body xs goto j (skipn j es) w r.
Proof.
  induction f as [|f IH]; intros j w r Hj Hh E; [discriminate|]. cbn [loop] in E.
  rewrite (here_more j w Hh Hj) in E.
  destruct (Nat.leb_spec len j) as [Hle|Hlt]; cbn [negb] in E.
  - inversion E; subst. rewrite skipn_all2 by lia. constructor.
  - destruct (skip_cons _ es j Hlt) as ((key, v) & A1 & ->).
    rewrite (fetched xs it body w _ (here_fetch j key v w Hh A1)) in E.
    destruct (body f (give X xs key v w)) as [r1|] eqn:E1; [|discriminate].
    assert (Ht : terminates S_ body (give X xs key v w) r1) by (exists f; exact E1).
    assert (Hgo : forall w2, r1 = ONorm S_ w2 \/ r1 = OCont S_ w2 ->
       match advance S_ it w2 with
       | EErr w3 => Some (OErr S_ w3)
       | EOk _ w3 => loop S_ (more S_ it) (with_fetch xs it body) (advance S_ it) f w3
       end = Some r -> visits X R body xs goto j ((key, v) :: skipn (S j) es) w r).
    { intros w2 Hr E2. destruct (here_body j key v w r1 w2 Hh Ht Hr Hlt) as (B1 & B2).
      eapply vi_next; [exact Ht | exact Hr |]. apply IH; [lia | exact B2 |]. rewrite B1 in E2. exact E2. }
    destruct r1 as [w2|w2|w2|vs w2|w2]; try (eapply Hgo; eauto; fail); inversion E; subst.
    + apply vi_break. exact Ht.
    + apply vi_return. exact Ht.
    + apply vi_error. exact Ht.
Qed.
End Loop.

(** ** The loop over something indexed that the body may change. *)
Section Changing.
Variables (xs : list nat) (it n c : nat) (body : sden S_).
Hypothesis Hxs : (1 <= length xs)%nat.
Hypothesis Hit : ~ In it xs.
Hypothesis Hm : mono S_ body.
Hypothesis Hr : respects X R body it n.
Hypothesis Hk : keeps_kind X R body it n c.

Definition at_ (i : nat) (w : world) : Prop :=
  hidden X it n w /\ iters w n = Some (PIdx c i) /\ (forall k, iheap w c = Some k -> indexed k = true).

Lemma idx_end : forall i k (w : world), iheap w c = Some k -> indexed k = true ->
  it_end (PIdx c i) w = EOk (size k <=? i)%nat w.
Proof. intros i [l|s|m] w H Hi; cbn [it_end]; rewrite H; [reflexivity | reflexivity | discriminate]. Qed.
Lemma idx_get : forall i k (w : world), iheap w c = Some k -> indexed k = true ->
  it_get_vals (PIdx c i) w = EOk [item k i; VInt (Z.of_nat i)] w.
Proof. intros i [l|s|m] w H Hi; cbn [it_get_vals]; rewrite H; [reflexivity | reflexivity | discriminate]. Qed.
Lemma idx_next : forall i k (w : world), iheap w c = Some k -> indexed k = true ->
  it_next (PIdx c i) w = EOk (PIdx c (if (i <? size k)%nat then S i else i)) w.
Proof.
  intros i [l|s|m] w H Hi; cbn [it_next size]; rewrite H; [| | discriminate]; destruct (_ <? _)%nat; reflexivity.
Qed.

Lemma at_body : forall i k w r w2, at_ i w -> iheap w c = Some k ->
  terminates S_ body (give X xs (VInt (Z.of_nat i)) (item k i) w) r -> r = ONorm S_ w2 \/ r = OCont S_ w2 ->
  at_ i w2.
Proof.
  intros i k w r w2 (H1 & H2 & H3) Hc Ht Ho.
  assert (G1 : hidden X it n (give X xs (VInt (Z.of_nat i)) (item k i) w)) by (apply give_keeps; auto).
  destruct (Hr _ _ _ G1 Ht Ho) as (Q1 & Q2). rewrite give_iters in Q2.
  split; [exact Q1|]. split; [congruence|]. intros k2 H. eapply Hk; [exact G1 | | exact Ht | exact Ho | exact H].
  rewrite give_heap. exact H3.
Qed.
Lemma at_go : forall i w k2, at_ i w -> iheap w c = Some k2 ->
  let i' := if (i <? size k2)%nat then S i else i in
  advance S_ it w = EOk tt (set_iter n (PIdx c i') w) /\ at_ i' (set_iter n (PIdx c i') w).
Proof.
  intros i w k2 (H1 & H2 & H3) Hc i'. split.
  - eapply advance_at; [exact H1 | exact H2 |]. apply idx_next; auto.
  - split; [exact H1|]. split; [|exact H3]. cbn [set_iter iters]. rewrite Nat.eqb_refl. reflexivity.
Qed.
Lemma at_gone : forall i w, at_ i w -> iheap w c = None -> advance S_ it w = EErr w.
Proof.
  intros i w (H1 & H2 & H3) Hc. eapply advance_err; [exact H1 | exact H2 |]. cbn [it_next]. rewrite Hc. reflexivity.
Qed.
Lemma at_more : forall i w k, at_ i w -> iheap w c = Some k -> more S_ it w = EOk (negb (size k <=? i)%nat) w.
Proof. intros i w k (H1 & H2 & H3) Hc. eapply more_at; [exact H1 | exact H2 |]. apply idx_end; auto. Qed.
Lemma at_none : forall i w, at_ i w -> iheap w c = None -> more S_ it w = EErr w.
Proof. intros i w (H1 & H2 & H3) Hc. eapply more_gone; [exact H1 | exact H2 |]. cbn [it_end]. rewrite Hc. reflexivity. Qed.
Lemma at_fetch : forall i w k, at_ i w -> iheap w c = Some k ->
  fetch S_ xs it w = EOk tt (give X xs (VInt (Z.of_nat i)) (item k i) w).
Proof. intros i w k (H1 & H2 & H3) Hc. eapply fetch_at; [exact Hxs | exact H1 | exact H2 |]. apply idx_get; auto. Qed.

Lemma rounds_runs : forall i w r, rounds X R body xs c n i w r -> at_ i w ->
  while_runs S_ (more S_ it) (with_fetch xs it body) (advance S_ it) w r.
Proof.
  intros i w r V. induction V as [i w k Hc Hs|i i' w k r1 w2 k2 r Hc Hs Ht Ho Hc2 Hi V IH|i w k r1 w2 Hc Hs Ht Ho Hc2
     |i w k w2 Hc Hs Ht|i w k vs w2 Hc Hs Ht|i w k w2 Hc Hs Ht]; intros Ha.
  - apply wr_stop. rewrite (at_more i w k Ha Hc). destruct (Nat.leb_spec (size k) i); [reflexivity | lia].
  - pose proof (at_body i k w r1 w2 Ha Hc Ht Ho) as Ha2. destruct (at_go i w2 k2 Ha2 Hc2) as (B1 & B2). rewrite <- Hi in B1, B2.
    eapply wr_next; [rewrite (at_more i w k Ha Hc); destruct (Nat.leb_spec (size k) i); [lia | reflexivity] | | exact Ho | exact B1 |].
    + eapply fetched_term; [eapply at_fetch; eauto | exact Ht].
    + apply IH. exact B2.
  - pose proof (at_body i k w r1 w2 Ha Hc Ht Ho) as Ha2.
    eapply wr_post_error; [rewrite (at_more i w k Ha Hc); destruct (Nat.leb_spec (size k) i); [lia | reflexivity] | | exact Ho | eapply at_gone; eauto].
    eapply fetched_term; [eapply at_fetch; eauto | exact Ht].
  - eapply wr_break; [rewrite (at_more i w k Ha Hc); destruct (Nat.leb_spec (size k) i); [lia | reflexivity]|].
    eapply fetched_term; [eapply at_fetch; eauto | exact Ht].
  - eapply wr_return; [rewrite (at_more i w k Ha Hc); destruct (Nat.leb_spec (size k) i); [lia | reflexivity]|].
    eapply fetched_term; [eapply at_fetch; eauto | exact Ht].
  - eapply wr_body_error; [rewrite (at_more i w k Ha Hc); destruct (Nat.leb_spec (size k) i); [lia | reflexivity]|].
    eapply fetched_term; [eapply at_fetch; eauto | exact Ht].
Qed.
Lemma loop_rounds : forall f i w r, at_ i w -> iheap w c <> None ->
  loop S_ (more S_ it) (with_fetch xs it body) (advance S_ it) f w = Some r ->
  rounds X R body xs c n i w r.
Proof.
  induction f as [|f IH]; intros i w r Ha Hn E; [discriminate|]. cbn [loop] in E.
  destruct (iheap w c) as [k|] eqn:Hc; [|congruence].
  rewrite (at_more i w k Ha Hc) in E. destruct (Nat.leb_spec (size k) i) as [Hle|Hlt]; cbn [negb] in E.
  - inversion E; subst. eapply ro_end; eauto.
  - rewrite (fetched xs it body w _ (at_fetch i w k Ha Hc)) in E.
    destruct (body f (give X xs (VInt (Z.of_nat i)) (item k i) w)) as [r1|] eqn:E1; [|discriminate].
    assert (Ht : terminates S_ body (give X xs (VInt (Z.of_nat i)) (item k i) w) r1) by (exists f; exact E1).
    assert (Hgo : forall w2, r1 = ONorm S_ w2 \/ r1 = OCont S_ w2 ->
       match advance S_ it w2 with
       | EErr w3 => Some (OErr S_ w3)
       | EOk _ w3 => loop S_ (more S_ it) (with_fetch xs it body) (advance S_ it) f w3
       end = Some r -> rounds X R body xs c n i w r).
    { intros w2 Ho E2. pose proof (at_body i k w r1 w2 Ha Hc Ht Ho) as Ha2.
      destruct (iheap w2 c) as [k2|] eqn:Hc2.
      - destruct (at_go i w2 k2 Ha2 Hc2) as (B1 & B2). rewrite B1 in E2.
        eapply ro_next; [exact Hc | exact Hlt | exact Ht | exact Ho | exact Hc2 | reflexivity |].
        apply IH; [exact B2 | cbn [set_iter iheap]; congruence | exact E2].
      - rewrite (at_gone i w2 Ha2 Hc2) in E2. inversion E2; subst.
        eapply ro_gone; [exact Hc | exact Hlt | exact Ht | exact Ho | exact Hc2]. }
    destruct r1 as [w2|w2|w2|vs w2|w2]; try (eapply Hgo; eauto; fail); inversion E; subst.
    + eapply ro_break; [exact Hc | exact Hlt | exact Ht].
    + eapply ro_return; [exact Hc | exact Hlt | exact Ht].
    + eapply ro_error; [exact Hc | exact Hlt | exact Ht].
Qed.
End Changing.

(** ** The whole statement. *)
Lemma forin_unfold : forall z xs it a b w v w1, eval_operand S_ a w = EOk v w1 ->
  forall f, exec_stmt S_ (SForIn z xs it a b) f w =
    leaving S_ z (then_ S_ (Some (of_unit S_ (i_init v (Local it) w1)))
      (loop S_ (more S_ it) (with_fetch xs it (exec_block S_ true b)) (advance S_ it) f)).
Proof. intros z xs it a b w v w1 E f. cbn [exec_stmt]. rewrite E. reflexivity. Qed.
Lemma leaving_left : forall z r r', leaving S_ z (Some r) = Some r' <-> r' = left_scope X R z r.
Proof. intros z [] r'; cbn; split; intros H; inversion H; reflexivity. Qed.
Lemma forin_start : forall z xs it a b w c w1 k, eval_operand S_ a w = EOk (VRef c) w1 -> iheap w1 c = Some k ->
  forall r', terminates S_ (exec_stmt S_ (SForIn z xs it a b)) w r' <->
  exists r, terminates S_ (loop S_ (more S_ it) (with_fetch xs it (exec_block S_ true b)) (advance S_ it))
    (started X it c k w1) r /\ r' = left_scope X R z r.
Proof.
  intros z xs it a b w c w1 k Ea Hc r'. unfold terminates.
  assert (U : forall f, exec_stmt S_ (SForIn z xs it a b) f w = leaving S_ z
     (loop S_ (more S_ it) (with_fetch xs it (exec_block S_ true b)) (advance S_ it) f (started X it c k w1))).
  { intros f. rewrite (forin_unfold z xs it a b w _ w1 Ea f). cbn [i_init]. rewrite Hc. reflexivity. }
  split.
  - intros (f & E). rewrite U in E.
    destruct (loop S_ (more S_ it) (with_fetch xs it (exec_block S_ true b)) (advance S_ it) f (started X it c k w1)) as [r|] eqn:El;
      [|discriminate].
    exists r. split; [exists f; exact El|]. apply leaving_left. exact E.
  - intros (r & (f & El) & ->). exists f. rewrite U, El. apply leaving_left. reflexivity.
Qed.
End Proofs.
