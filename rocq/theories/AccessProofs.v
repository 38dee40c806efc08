(** Proofs about indexed reads and stores. *)
From Coq Require Import List ZArith Bool Lia Arith SpecFloat.
From Verif Require Import Base FloatModel StringModel ValueModel ValueProofs AccessModel AccessSpec.
Import ListNotations.
Local Open Scope Z_scope.

(** ** Lists *)
Lemma put_same {A} (l : list A) i x : (i < List.length l)%nat -> nth_error (put l i x) i = Some x.
Proof. revert i. induction l; intros [|i] H; cbn in *; try lia; try reflexivity. apply IHl. lia. Qed.
Lemma put_other {A} (l : list A) i j x : j <> i -> nth_error (put l i x) j = nth_error l j.
Proof. revert i j. induction l; intros [|i] [|j] H; cbn; try reflexivity; try congruence. apply IHl. congruence. Qed.
Lemma put_length {A} (l : list A) i x : List.length (put l i x) = List.length l.
Proof. revert i. induction l; intros [|i]; cbn; congruence. Qed.
Lemma put_map {A B} (f : A -> B) l i x : map f (put l i x) = put (map f l) i (f x).
Proof. revert i. induction l; intros [|i]; cbn; congruence. Qed.
Lemma put_split {A} (l : list A) i x : (i < List.length l)%nat -> put l i x = firstn i l ++ x :: skipn (S i) l.
Proof. revert i. induction l; intros [|i] H; cbn [put firstn skipn app List.length] in *; try lia; [reflexivity|]. rewrite IHl by lia. reflexivity. Qed.
Lemma nth_error_lt {A} (l : list A) i x : nth_error l i = Some x -> (i < List.length l)%nat.
Proof. intros H. apply nth_error_Some. congruence. Qed.
Lemma nth_error_ext {A} (l l' : list A) : (forall i, nth_error l i = nth_error l' i) -> l = l'.
Proof.
  revert l'. induction l as [|a l IH]; intros [|b l'] H; [reflexivity|specialize (H O); discriminate|specialize (H O); discriminate|].
  pose proof (H O) as H0. injection H0 as <-. f_equal. apply IH. intros i. exact (H (S i)).
Qed.
Lemma nth_error_last {A} (l : list A) x : nth_error (l ++ [x]) (List.length l) = Some x.
Proof. rewrite nth_error_app2, Nat.sub_diag by lia. reflexivity. Qed.
Lemma nth_error_old {A} (l : list A) x i y : nth_error l i = Some y -> nth_error (l ++ [x]) i = Some y.
Proof. intros H. rewrite nth_error_app1; [exact H|]. eapply nth_error_lt, H. Qed.

Lemma find_key_some k ks p : find_key k ks = Some p ->
  nth_error ks p = Some k /\ forall q, (q < p)%nat -> nth_error ks q <> Some k.
Proof.
  revert p. induction ks as [|k' ks IH]; intros p H; cbn [find_key] in H; [discriminate|].
  destruct (list_eq_dec Z.eq_dec k k') as [<-|N].
  - injection H as <-. split; [reflexivity|lia].
  - destruct (find_key k ks) as [q|] eqn:F; [|discriminate]. injection H as <-. destruct (IH q eq_refl) as [A B].
    split; [exact A|]. intros [|j] Hj; cbn; [congruence|]. apply B. lia.
Qed.
Lemma find_key_none k ks : find_key k ks = None <-> ~ In k ks.
Proof.
  induction ks as [|k' ks IH]; cbn [find_key In]; [intuition|].
  destruct (list_eq_dec Z.eq_dec k k') as [<-|N]; [intuition discriminate|].
  destruct (find_key k ks); cbn [option_map]; split; intros H; try discriminate; try tauto.
  - exfalso. apply H. right. destruct IH as [_ IH]. destruct (in_dec (list_eq_dec Z.eq_dec) k ks) as [I|I]; [exact I|]. specialize (IH I). discriminate.
  - intros [->|I]; [congruence|]. apply IH; tauto.
Qed.
Lemma at_key_find {A} ks (vs : list A) k p v : at_key ks vs k p v -> find_key k ks = Some p.
Proof.
  intros [A1 [B _]]. destruct (find_key k ks) as [q|] eqn:F.
  - destruct (find_key_some _ _ _ F) as [A2 B2]. f_equal.
    destruct (lt_eq_lt_dec p q) as [[L| -> ]|L]; [|reflexivity|].
    + destruct (B2 p L A1).
    + destruct (B q L A2).
  - apply find_key_none in F. destruct F. eapply nth_error_In, A1.
Qed.

(** ** Cells *)
Lemma get_cell_cont m c i x : get_cell m c i = Some x <-> exists k, nth_error (conts m) c = Some k /\ nth_error (cells k) i = Some x.
Proof.
  unfold get_cell. destruct (nth_error (conts m) c) as [k|]; split; intros H.
  - eauto.
  - destruct H as [k' [E H]]. injection E as <-. exact H.
  - discriminate.
  - destruct H as [k' [E _]]. discriminate.
Qed.
Lemma set_cell_same m c i x y : get_cell m c i = Some y -> get_cell (set_cell m c i x) c i = Some x.
Proof.
  intros H. apply get_cell_cont in H. destruct H as [k [Hc Hi]]. unfold set_cell. rewrite Hc.
  apply get_cell_cont. exists (Cont (keys k) (put (cells k) i x)). cbn [conts cells]. split.
  - apply put_same. eapply nth_error_lt, Hc.
  - apply put_same. eapply nth_error_lt, Hi.
Qed.
Lemma set_cell_other m c i x d j : ~ (d = c /\ j = i) -> get_cell (set_cell m c i x) d j = get_cell m d j.
Proof.
  intros N. unfold set_cell. destruct (nth_error (conts m) c) as [k|] eqn:Hc; [|reflexivity].
  unfold get_cell. cbn [conts]. destruct (Nat.eq_dec d c) as [->|D].
  - rewrite put_same by (eapply nth_error_lt, Hc). rewrite Hc. cbn [cells]. apply put_other. intros ->. apply N. auto.
  - rewrite put_other by exact D. reflexivity.
Qed.
Lemma set_cell_strs m c i x : strs (set_cell m c i x) = strs m.
Proof. unfold set_cell. destruct (nth_error (conts m) c); reflexivity. Qed.
Lemma set_cell_conts m c i x : List.length (conts (set_cell m c i x)) = List.length (conts m).
Proof. unfold set_cell. destruct (nth_error (conts m) c); [apply put_length|reflexivity]. Qed.
Lemma set_cell_cont m c i x d k : nth_error (conts (set_cell m c i x)) d = Some k ->
  exists k', nth_error (conts m) d = Some k' /\ keys k = keys k' /\ List.length (cells k) = List.length (cells k').
Proof.
  unfold set_cell. destruct (nth_error (conts m) c) as [o|] eqn:Hc; [|eauto]. cbn [conts]. intros H.
  destruct (Nat.eq_dec d c) as [->|D].
  - rewrite put_same in H by (eapply nth_error_lt, Hc). injection H as <-. exists o. cbn [keys cells]. rewrite put_length. auto.
  - rewrite put_other in H by exact D. eauto.
Qed.

Lemma add_cell_strs m c k x : strs (add_cell m c k x) = strs m.
Proof. unfold add_cell. destruct (nth_error (conts m) c); reflexivity. Qed.
Lemma add_cell_conts m c k x : List.length (conts (add_cell m c k x)) = List.length (conts m).
Proof. unfold add_cell. destruct (nth_error (conts m) c); [apply put_length|reflexivity]. Qed.
Lemma add_cell_new m c k x o : nth_error (conts m) c = Some o -> get_cell (add_cell m c k x) c (List.length (cells o)) = Some x.
Proof.
  intros Hc. unfold add_cell. rewrite Hc. unfold get_cell. cbn [conts]. rewrite put_same by (eapply nth_error_lt, Hc).
  cbn [cells]. apply nth_error_last.
Qed.
Lemma add_cell_get m c k x o d j y : nth_error (conts m) c = Some o -> get_cell (add_cell m c k x) d j = Some y ->
  get_cell m d j = Some y \/ (d = c /\ j = List.length (cells o) /\ y = x).
Proof.
  intros Hc. unfold add_cell. rewrite Hc. unfold get_cell. cbn [conts]. destruct (Nat.eq_dec d c) as [->|D].
  - rewrite put_same by (eapply nth_error_lt, Hc). rewrite Hc. cbn [cells]. intros H.
    destruct (Nat.lt_ge_cases j (List.length (cells o))) as [L|L].
    + left. rewrite nth_error_app1 in H by exact L. exact H.
    + rewrite nth_error_app2 in H by exact L. destruct (j - List.length (cells o))%nat as [|q] eqn:Q; cbn in H; [|destruct q; discriminate].
      injection H as <-. right. repeat split. lia.
  - rewrite put_other by exact D. auto.
Qed.
Lemma add_cell_old m c k x d j y : get_cell m d j = Some y -> get_cell (add_cell m c k x) d j = Some y.
Proof.
  intros H. unfold add_cell. destruct (nth_error (conts m) c) as [o|] eqn:Hc; [|exact H]. unfold get_cell in *. cbn [conts].
  destruct (Nat.eq_dec d c) as [->|D].
  - rewrite put_same by (eapply nth_error_lt, Hc). rewrite Hc in H. cbn [cells]. apply nth_error_old. exact H.
  - rewrite put_other by exact D. exact H.
Qed.

(** ** Memories of programs *)
Definition valid (m : mem) (x : cell) : Prop :=
  match x with CStr r => (r < List.length (strs m))%nat | CRef d => (d < List.length (conts m))%nat | _ => True end.
(** No cell has the string object of [x]. *)
Definition free (m : mem) (x : cell) : Prop := forall r c i, x = CStr r -> get_cell m c i <> Some (CStr r).

Lemma wf_get m c i x : wf m -> get_cell m c i = Some x -> valid m x.
Proof. intros [W _] H. exact (W c i x H). Qed.
Lemma valid_new_text m t x : valid m x -> valid (fst (new_text m t)) x.
Proof. destruct x; cbn; auto. rewrite app_length. lia. Qed.
Lemma wf_new_text m t : wf m -> wf (fst (new_text m t)).
Proof.
  intros [W1 [W2 [W3 W4]]]. split; [|split; [|split]]; [|exact W2|exact W3|exact W4].
  intros c i x H. exact (valid_new_text m t x (W1 c i x H)).
Qed.
Lemma free_new_text m t : wf m -> free (fst (new_text m t)) (CStr (snd (new_text m t))).
Proof.
  intros [W1 _] r c i E H. injection E as E. specialize (W1 c i _ H). cbn in W1. unfold new_text in E. cbn [snd] in E. lia.
Qed.
Lemma new_cont_get m ks c i : get_cell (fst (new_cont m ks)) c i = get_cell m c i.
Proof.
  unfold get_cell. cbn [new_cont fst conts]. destruct (Nat.lt_ge_cases c (List.length (conts m))) as [L|L].
  - rewrite nth_error_app1 by exact L. reflexivity.
  - rewrite nth_error_app2 by exact L. rewrite (proj2 (nth_error_None (conts m) c) L).
    destruct (c - List.length (conts m))%nat as [|q]; cbn; [destruct i|destruct q]; reflexivity.
Qed.
Lemma valid_new_cont m ks x : valid m x -> valid (fst (new_cont m ks)) x.
Proof. destruct x; cbn; auto. rewrite app_length. lia. Qed.
Lemma wf_new_cont m ks : wf m -> (ks = None \/ ks = Some []) -> wf (fst (new_cont m ks)).
Proof.
  intros [W1 [W2 [W3 [k0 [W4 W5]]]]] K. split; [|split; [|split]].
  - intros c i x H. rewrite new_cont_get in H. exact (valid_new_cont m ks x (W1 c i x H)).
  - intros c i d j r. rewrite !new_cont_get. apply W2.
  - intros c k ks' H E. cbn [new_cont fst conts] in H.
    destruct (Nat.lt_ge_cases c (List.length (conts m))) as [L|L].
    + rewrite nth_error_app1 in H by exact L. exact (W3 c k ks' H E).
    + rewrite nth_error_app2 in H by exact L. destruct (c - List.length (conts m))%nat as [|q]; cbn in H; [|destruct q; discriminate].
      injection H as <-. cbn [keys] in E. destruct K as [->| -> ]; [discriminate|]. injection E as <-. split; [reflexivity|constructor].
  - exists k0. split; [|exact W5]. cbn [new_cont fst conts]. apply nth_error_old. exact W4.
Qed.
Lemma valid_set_cell m c i x y : valid m y -> valid (set_cell m c i x) y.
Proof. destruct y; cbn; auto; rewrite ?set_cell_strs, ?set_cell_conts; auto. Qed.
Lemma cell_eq_dec (d c j i : nat) : {d = c /\ j = i} + {~ (d = c /\ j = i)}.
Proof. destruct (Nat.eq_dec d c), (Nat.eq_dec j i); [left|right|right|right]; tauto. Qed.
Lemma wf_set_cell m c i x y : wf m -> get_cell m c i = Some y -> valid m x -> free m x -> wf (set_cell m c i x).
Proof.
  intros [W1 [W2 [W3 [k0 [W4 W5]]]]] G V F. split; [|split; [|split]].
  - intros d j z H. destruct (cell_eq_dec d c j i) as [[-> ->]|N].
    + rewrite (set_cell_same m c i x y G) in H. injection H as <-. apply valid_set_cell. exact V.
    + rewrite set_cell_other in H by exact N. apply valid_set_cell. exact (W1 d j z H).
  - intros d j d' j' r H H'. destruct (cell_eq_dec d c j i) as [[-> ->]|N]; destruct (cell_eq_dec d' c j' i) as [[-> ->]|N'].
    + auto.
    + rewrite (set_cell_same m c i x y G) in H. injection H as ->. rewrite set_cell_other in H' by exact N'.
      destruct (F r d' j' eq_refl H').
    + rewrite (set_cell_same m c i x y G) in H'. injection H' as ->. rewrite set_cell_other in H by exact N.
      destruct (F r d j eq_refl H).
    + rewrite set_cell_other in H by exact N. rewrite set_cell_other in H' by exact N'. exact (W2 d j d' j' r H H').
  - intros d k ks H E. destruct (set_cell_cont _ _ _ _ _ _ H) as [k' [A [B C]]]. rewrite C. apply (W3 d k' ks A). congruence.
  - unfold set_cell. destruct (nth_error (conts m) c) as [o|] eqn:Hc; [|eauto]. cbn [conts].
    destruct (Nat.eq_dec 0 c) as [<-|D].
    + rewrite put_same by (eapply nth_error_lt, Hc). eexists; split; [reflexivity|]. cbn [keys]. congruence.
    + rewrite put_other by exact D. eauto.
Qed.
Lemma valid_add_cell m c k x y : valid m y -> valid (add_cell m c k x) y.
Proof. destruct y; cbn; auto; rewrite ?add_cell_strs, ?add_cell_conts; auto. Qed.
(** The key given fits the container: none for an array, a new one for an object. *)
Definition key_ok (o : cont cell) (k : option (list Z)) : Prop :=
  match keys o, k with None, None => True | Some ks, Some k' => ~ In k' ks | _, _ => False end.
Lemma wf_add_cell m c k x o : wf m -> nth_error (conts m) c = Some o -> key_ok o k -> valid m x -> free m x -> wf (add_cell m c k x).
Proof.
  intros [W1 [W2 [W3 [k0 [W4 W5]]]]] Hc K V F. split; [|split; [|split]].
  - intros d j z H. destruct (add_cell_get _ _ _ _ _ _ _ _ Hc H) as [G|[_ [_ ->]]]; apply valid_add_cell; [exact (W1 d j z G)|exact V].
  - intros d j d' j' r H H'.
    destruct (add_cell_get _ _ _ _ _ _ _ _ Hc H) as [G|[-> [-> E]]]; destruct (add_cell_get _ _ _ _ _ _ _ _ Hc H') as [G'|[-> [-> E']]].
    + exact (W2 d j d' j' r G G').
    + subst x. destruct (F r d j eq_refl G).
    + subst x. destruct (F r d' j' eq_refl G').
    + auto.
  - intros d q ks. unfold add_cell. rewrite Hc. cbn [conts]. destruct (Nat.eq_dec d c) as [->|D].
    + rewrite put_same by (eapply nth_error_lt, Hc). intros H E. injection H as <-. cbn [keys cells] in *. unfold key_ok in K.
      destruct (keys o) as [ks'|] eqn:Eo; [|destruct k; discriminate]. destruct k as [k'|]; [|destruct K]. injection E as <-.
      destruct (W3 c o ks' Hc Eo) as [L N]. rewrite !app_length, L. split; [reflexivity|].
      clear -N K. induction ks' as [|a l IH]; cbn; [constructor; [intros []|constructor]|].
      inversion N; subst. constructor.
      * rewrite in_app_iff. cbn [In] in *. intuition.
      * apply IH; cbn [In] in K; tauto.
    + rewrite put_other by exact D. apply W3.
  - unfold add_cell. rewrite Hc. cbn [conts]. destruct (Nat.eq_dec 0 c) as [<-|D].
    + rewrite put_same by (eapply nth_error_lt, Hc). eexists; split; [reflexivity|]. cbn [keys].
      replace o with k0 by congruence. rewrite W5. destruct k; reflexivity.
    + rewrite put_other by exact D. eauto.
Qed.
Lemma wf_put_text m r t : wf m -> wf (Mem (conts m) (put (strs m) r t)).
Proof.
  intros [W1 [W2 [W3 W4]]]. split; [|split; [|split]]; [|exact W2|exact W3|exact W4].
  intros c i x H. specialize (W1 c i x H). destruct x; auto. cbn [strs]. rewrite put_length. exact W1.
Qed.

Lemma wf_start n : wf (start n).
Proof.
  assert (G : forall c i x, get_cell (start n) c i = Some x -> x = CU).
  { intros c i x H. apply get_cell_cont in H. destruct H as [k [A B]]. destruct c as [|[|c]]; cbn in A; try discriminate.
    injection A as <-. cbn [cells] in B. eapply repeat_spec, nth_error_In, B. }
  split; [|split; [|split]].
  - intros c i x H. rewrite (G _ _ _ H). exact I.
  - intros c i d j r H. specialize (G _ _ _ H). discriminate.
  - intros c k ks H E. destruct c as [|[|c]]; cbn in H; try discriminate. injection H as <-. discriminate.
  - eexists. split; reflexivity.
Qed.

(** ** Evaluation only adds *)
Definition extends (m m' : mem) : Prop :=
  (forall c k, nth_error (conts m) c = Some k -> nth_error (conts m') c = Some k) /\
  (forall r t, nth_error (strs m) r = Some t -> nth_error (strs m') r = Some t).
Lemma extends_refl m : extends m m.
Proof. split; auto. Qed.
Lemma extends_trans a b c : extends a b -> extends b c -> extends a c.
Proof. intros [A B] [C D]. split; auto. Qed.
Lemma prefix_length {A} (l l' : list A) : (forall c k, nth_error l c = Some k -> nth_error l' c = Some k) -> (List.length l <= List.length l')%nat.
Proof.
  intros H. destruct l as [|a l]; [cbn; lia|]. assert (X : exists x, nth_error (a :: l) (List.length l) = Some x).
  { destruct (nth_error (a :: l) (List.length l)) eqn:E; [eauto|]. apply nth_error_None in E. cbn in E. lia. }
  destruct X as [x X]. apply H in X. apply nth_error_lt in X. cbn [List.length]. lia.
Qed.
Lemma extends_conts m m' : extends m m' -> (List.length (conts m) <= List.length (conts m'))%nat.
Proof. intros [A _]. exact (prefix_length _ _ A). Qed.
Lemma extends_strs m m' : extends m m' -> (List.length (strs m) <= List.length (strs m'))%nat.
Proof. intros [_ A]. exact (prefix_length _ _ A). Qed.
Lemma extends_valid m m' x : extends m m' -> valid m x -> valid m' x.
Proof. intros E. pose proof (extends_conts _ _ E). pose proof (extends_strs _ _ E). destruct x; cbn; lia. Qed.
Lemma extends_text m t : extends m (fst (new_text m t)).
Proof. split; [auto|]. intros r t' H. cbn [new_text fst strs]. apply nth_error_old. exact H. Qed.
Lemma extends_cont m ks : extends m (fst (new_cont m ks)).
Proof. split; [|auto]. intros c k H. cbn [new_cont fst conts]. apply nth_error_old. exact H. Qed.
(** A change in a container that [m] does not have. *)
Lemma extends_set m m' c i x : extends m m' -> (List.length (conts m) <= c)%nat -> extends m (set_cell m' c i x).
Proof.
  intros [A B] L. split; [|rewrite set_cell_strs; exact B]. intros d k H. pose proof (nth_error_lt _ _ _ H).
  unfold set_cell. destruct (nth_error (conts m') c); [|auto]. cbn [conts]. rewrite put_other by lia. auto.
Qed.
Lemma extends_add m m' c k x : extends m m' -> (List.length (conts m) <= c)%nat -> extends m (add_cell m' c k x).
Proof.
  intros [A B] L. split; [|rewrite add_cell_strs; exact B]. intros d q H. pose proof (nth_error_lt _ _ _ H).
  unfold add_cell. destruct (nth_error (conts m') c); [|auto]. cbn [conts]. rewrite put_other by lia. auto.
Qed.

Lemma rbind_ok {A B} (x : res A) (f : A -> res B) b : rbind x f = Ok b -> exists a, x = Ok a /\ f a = Ok b.
Proof. destruct x; cbn; intros; try discriminate; eauto. Qed.
Lemma ofo_ok {A} (o : option A) a : ofo o = Ok a -> o = Some a.
Proof. destruct o; cbn; congruence. Qed.

Scheme expr_ind2 := Induction for expr Sort Prop
with lit_ind2 := Induction for lit Sort Prop.
Combined Scheme expr_lit_ind from expr_ind2, lit_ind2.

Lemma item_ok m x m' y : item m x = Ok (m', y) -> wf m -> valid m x ->
  extends m m' /\ conts m' = conts m /\ wf m' /\ valid m' y /\ free m' y /\
  (tidy (shown (strs m) x) -> shown (strs m') y = shown (strs m) x).
Proof.
  intros H W V.
  destruct x; cbn [item] in H; try (injection H as <- <-; split; [apply extends_refl|]; split; [reflexivity|];
     split; [exact W|]; split; [exact V|]; split; [intros q c' i' E; discriminate|reflexivity]).
  destruct (nth_error (strs m) r) as [t|] eqn:E; [|discriminate].
  destruct (new_text m (set_text t)) as [m1 r1] eqn:N. injection H as <- <-.
  pose proof (extends_text m (set_text t)) as X. pose proof (wf_new_text m (set_text t) W) as W1.
  pose proof (free_new_text m (set_text t) W) as F. rewrite N in *. cbn [fst snd] in *.
  unfold new_text in N. injection N as <- <-. split; [exact X|]. split; [reflexivity|]. split; [exact W1|].
  split; [cbn; rewrite app_length; cbn; lia|]. split; [exact F|].
  cbn [shown strs]. rewrite E, nth_error_last. cbn [tidy]. intros T. f_equal. apply set_text_plain. exact T.
Qed.

Lemma item_extends m x m' y : item m x = Ok (m', y) -> extends m m' /\ conts m' = conts m.
Proof.
  destruct x; cbn [item]; try (intros H; injection H as <- <-; split; [apply extends_refl|reflexivity]).
  destruct (nth_error (strs m) r); [|discriminate]. intros H. injection H as <- <-. split; [|reflexivity]. apply (extends_text m).
Qed.

Lemma eval_build_extends :
  (forall e m m' x, eval m e = Ok (m', x) -> extends m m') /\
  (forall l m m' c, build m l = Ok (m', c) -> extends m m' /\ (List.length (conts m) <= c < List.length (conts m'))%nat).
Proof.
  apply expr_lit_ind.
  - intros k m m' x H. cbn [eval] in H. injection H as H. destruct k; injection H as <- <-; try apply extends_refl. apply (extends_text m).
  - intros i m m' x H. cbn [eval] in H. apply rbind_ok in H. destruct H as [v [_ H]]. injection H as <- <-. apply extends_refl.
  - intros a IHa i IHi m m' x H. cbn [eval] in H. apply rbind_ok in H. destruct H as [[m1 v1] [H1 H]]. apply rbind_ok in H.
    destruct H as [[m2 v2] [H2 H]]. cbn [fst snd] in *. apply rbind_ok in H. destruct H as [v [_ H]]. injection H as <- <-.
    exact (extends_trans _ _ _ (IHa _ _ _ H1) (IHi _ _ _ H2)).
  - intros l IHl m m' x H. cbn [eval] in H. apply rbind_ok in H. destruct H as [[m1 c] [H1 H]]. injection H as <- <-. apply (IHl _ _ _ H1).
  - intros m m' c H. cbn [build] in H. injection H as <- <-. split; [exact (extends_cont m None)|]. cbn. rewrite app_length. cbn. lia.
  - intros l IHl e IHe m m' c H. cbn [build] in H. apply rbind_ok in H. destruct H as [[m1 c1] [H1 H]]. apply rbind_ok in H.
    destruct H as [[m2 v2] [H2 H]]. apply rbind_ok in H. destruct H as [[m3 v3] [H3 H]]. cbn [fst snd] in *.
    destruct (IHl _ _ _ H1) as [X1 B]. pose proof (IHe _ _ _ H2) as X2. destruct (item_extends _ _ _ _ H3) as [X3 C3].
    pose proof (extends_trans _ _ _ X2 X3) as X23. pose proof (extends_conts _ _ X23).
    destruct (nth_error (conts m3) c1) as [[[?|] ?]|]; try discriminate. injection H as <- <-. split.
    + apply extends_add; [|lia]. exact (extends_trans _ _ _ X1 X23).
    + rewrite add_cell_conts. lia.
  - intros m m' c H. cbn [build] in H. injection H as <- <-. split; [exact (extends_cont m (Some []))|]. cbn. rewrite app_length. cbn. lia.
  - intros l IHl k e IHe m m' c H. cbn [build] in H. apply rbind_ok in H. destruct H as [[m1 c1] [H1 H]]. apply rbind_ok in H.
    destruct H as [[m2 v2] [H2 H]]. apply rbind_ok in H. destruct H as [[m3 v3] [H3 H]]. cbn [fst snd] in *.
    destruct (IHl _ _ _ H1) as [X1 B]. pose proof (IHe _ _ _ H2) as X2. destruct (item_extends _ _ _ _ H3) as [X3 C3].
    pose proof (extends_trans _ _ _ X2 X3) as X23. pose proof (extends_conts _ _ X23).
    destruct (nth_error (conts m3) c1) as [[[ks|] ?]|]; try discriminate. injection H as <- <-. destruct (find_key k ks).
    + split; [|rewrite set_cell_conts; lia]. apply extends_set; [|lia]. exact (extends_trans _ _ _ X1 X23).
    + split; [|rewrite add_cell_conts; lia]. apply extends_add; [|lia]. exact (extends_trans _ _ _ X1 X23).
Qed.
Definition eval_extends := proj1 eval_build_extends.
Definition build_extends := proj2 eval_build_extends.

Lemma load_item_valid m x i v : wf m -> load_item m x i = Ok v -> valid m v.
Proof.
  intros W H. unfold load_item in H. apply rbind_ok in H. destruct H as [p [_ H]]. destruct p as [c k|c k|r z]; [| discriminate |].
  - apply ofo_ok in H. eapply wf_get; [exact W|exact H].
  - destruct (nth_error (strs m) r); [|discriminate]. apply rbind_ok in H. destruct H as [b [_ H]]. injection H as <-. exact I.
Qed.

Lemma find_key_cell m c ks cs p k : wf m -> nth_error (conts m) c = Some (Cont (Some ks) cs) -> find_key k ks = Some p ->
  exists y, get_cell m c p = Some y.
Proof.
  intros [_ [_ [W _]]] H F. destruct (find_key_some _ _ _ F) as [N _]. apply nth_error_lt in N.
  destruct (W c _ ks H eq_refl) as [L _]. cbn [cells] in L. rewrite L in N.
  destruct (nth_error cs p) as [y|] eqn:E; [|apply nth_error_None in E; lia].
  exists y. apply get_cell_cont. eexists; split; [exact H|exact E].
Qed.

Lemma eval_build_wf :
  (forall e m m' x, wf m -> eval m e = Ok (m', x) -> wf m' /\ valid m' x) /\
  (forall l m m' c, wf m -> build m l = Ok (m', c) -> wf m').
Proof.
  apply expr_lit_ind.
  - intros k m m' x W H. cbn [eval] in H. injection H as H. destruct k; injection H as <- <-; try (split; [exact W|exact I]).
    split; [apply (wf_new_text m), W|]. cbn. rewrite app_length. cbn. lia.
  - intros i m m' x W H. cbn [eval] in H. apply rbind_ok in H. destruct H as [v [G H]]. injection H as <- <-. split; [exact W|].
    apply ofo_ok in G. eapply wf_get; [exact W|exact G].
  - intros a IHa i IHi m m' x W H. cbn [eval] in H. apply rbind_ok in H. destruct H as [[m1 v1] [H1 H]]. apply rbind_ok in H.
    destruct H as [[m2 v2] [H2 H]]. cbn [fst snd] in *. apply rbind_ok in H. destruct H as [v [L H]]. injection H as <- <-.
    destruct (IHa _ _ _ W H1) as [W1 _]. destruct (IHi _ _ _ W1 H2) as [W2 _]. split; [exact W2|]. eapply load_item_valid; [exact W2|exact L].
  - intros l IHl m m' x W H. cbn [eval] in H. apply rbind_ok in H. destruct H as [[m1 c] [H1 H]]. injection H as <- <-.
    split; [exact (IHl _ _ _ W H1)|]. cbn. apply (build_extends l m m1 c H1).
  - intros m m' c W H. cbn [build] in H. injection H as <- <-. apply (wf_new_cont m None); auto.
  - intros l IHl e IHe m m' c W H. cbn [build] in H. apply rbind_ok in H. destruct H as [[m1 c1] [H1 H]]. apply rbind_ok in H.
    destruct H as [[m2 v2] [H2 H]]. apply rbind_ok in H. destruct H as [[m3 v3] [H3 H]]. cbn [fst snd] in *.
    pose proof (IHl _ _ _ W H1) as W1. destruct (IHe _ _ _ W1 H2) as [W2 V2]. destruct (item_ok _ _ _ _ H3 W2 V2) as [X3 [C3 [W3 [V3 [F3 _]]]]].
    destruct (nth_error (conts m3) c1) as [[[?|] cs]|] eqn:E; try discriminate. injection H as <- <-.
    eapply wf_add_cell; [exact W3|exact E|exact I|exact V3|exact F3].
  - intros m m' c W H. cbn [build] in H. injection H as <- <-. apply (wf_new_cont m (Some [])); auto.
  - intros l IHl k e IHe m m' c W H. cbn [build] in H. apply rbind_ok in H. destruct H as [[m1 c1] [H1 H]]. apply rbind_ok in H.
    destruct H as [[m2 v2] [H2 H]]. apply rbind_ok in H. destruct H as [[m3 v3] [H3 H]]. cbn [fst snd] in *.
    pose proof (IHl _ _ _ W H1) as W1. destruct (IHe _ _ _ W1 H2) as [W2 V2]. destruct (item_ok _ _ _ _ H3 W2 V2) as [X3 [C3 [W3 [V3 [F3 _]]]]].
    destruct (nth_error (conts m3) c1) as [[[ks|] cs]|] eqn:E; try discriminate. injection H as <- <-. destruct (find_key k ks) as [p|] eqn:F.
    + destruct (find_key_cell m3 c1 ks cs p k W3 E F) as [y Y]. eapply wf_set_cell; [exact W3|exact Y|exact V3|exact F3].
    + eapply wf_add_cell; [exact W3|exact E| |exact V3|exact F3]. cbn. apply find_key_none. exact F.
Qed.
Definition eval_wf := proj1 eval_build_wf.
Definition build_wf := proj2 eval_build_wf.

Lemma store_wf m c i v m' : wf m -> valid m v -> store m c i v = Ok m' -> wf m'.
Proof.
  intros W V H. unfold store in H. destruct (get_cell m c i) as [old|] eqn:G; [|discriminate].
  assert (D : (forall r, v <> CStr r) -> wf (set_cell m c i v)).
  { intros N. eapply wf_set_cell; [exact W|exact G|exact V|]. intros r d j E. destruct (N r E). }
  destruct v; try (injection H as <-; apply D; discriminate).
  destruct (nth_error (strs m) r) as [t|]; [|discriminate].
  assert (N : wf (set_cell (fst (new_text m (set_text t))) c i (CStr (snd (new_text m (set_text t)))))).
  { eapply wf_set_cell; [apply wf_new_text, W|exact G| |apply free_new_text, W]. cbn. rewrite app_length. cbn. lia. }
  destruct old; try (injection H as <-; exact N). injection H as <-. apply wf_put_text, W.
Qed.

Lemma access_cell m x i c k : wf m -> access m x i = Ok (PCell c k) -> exists y, get_cell m c k = Some y.
Proof.
  intros W H. unfold access in H. destruct x; try discriminate; [destruct i; discriminate|].
  destruct (nth_error (conts m) c0) as [[[ks|] cs]|] eqn:E; [| |discriminate].
  - destruct i; try discriminate. destruct (nth_error (strs m) r) as [q|]; [|discriminate].
    destruct (find_key q ks) eqn:F; [|discriminate]. injection H as <- <-. eapply find_key_cell; eassumption.
  - apply rbind_ok in H. destruct H as [z [_ H]]. destruct ((Z.of_nat (List.length cs) <=? z) || (z <? 0)) eqn:B; [discriminate|].
    injection H as <- <-. apply orb_false_iff in B. rewrite Z.leb_gt, Z.ltb_ge in B.
    destruct (nth_error cs (Z.to_nat z)) as [y|] eqn:N; [|apply nth_error_None in N; lia].
    exists y. apply get_cell_cont. eexists; split; [exact E|exact N].
Qed.
Lemma access_new m x i c k : access m x i = Ok (PNew c k) ->
  exists ks cs, nth_error (conts m) c = Some (Cont (Some ks) cs) /\ ~ In k ks.
Proof.
  intros H. unfold access in H. destruct x; try discriminate; [destruct i; discriminate|].
  destruct (nth_error (conts m) c0) as [[[ks|] cs]|] eqn:E; [| |discriminate].
  - destruct i; try discriminate. destruct (nth_error (strs m) r) as [q|]; [|discriminate].
    destruct (find_key q ks) eqn:F; [discriminate|]. injection H as <- <-. exists ks, cs. split; [exact E|]. apply find_key_none, F.
  - apply rbind_ok in H. destruct H as [z [_ H]]. destruct (_ || _); discriminate.
Qed.

Lemma wf_add_undef m c k ks cs : wf m -> nth_error (conts m) c = Some (Cont (Some ks) cs) -> ~ In k ks -> wf (add_cell m c (Some k) CU).
Proof. intros W E N. eapply wf_add_cell; [exact W|exact E|exact N|exact I|]. intros r d j Q. discriminate. Qed.

Lemma exec_wf m s m' : wf m -> exec m s = Ok m' -> wf m'.
Proof.
  intros W H. destruct s as [d e]. cbn [exec] in H. apply rbind_ok in H. destruct H as [[m1 v] [H1 H]]. cbn [fst snd] in *.
  destruct (eval_wf _ _ _ _ W H1) as [W1 V]. destruct d as [x|a i]; [eapply store_wf; eassumption|].
  apply rbind_ok in H. destruct H as [[m2 w] [H2 H]]. apply rbind_ok in H. destruct H as [[m3 u] [H3 H]]. cbn [fst snd] in *.
  destruct (eval_wf _ _ _ _ W1 H2) as [W2 _]. destruct (eval_wf _ _ _ _ W2 H3) as [W3 _].
  pose proof (extends_valid _ _ _ (extends_trans _ _ _ (eval_extends _ _ _ _ H2) (eval_extends _ _ _ _ H3)) V) as V3.
  apply rbind_ok in H. destruct H as [p [A H]]. destruct p as [c k|c k|r z].
  - eapply store_wf; [exact W3|exact V3|exact H].
  - destruct (access_new _ _ _ _ _ A) as [ks [cs [E N]]]. rewrite E in H.
    eapply store_wf; [|apply valid_add_cell, V3|exact H]. eapply wf_add_undef; eassumption.
  - unfold store_char in H. destruct v; try (injection H as <-; exact W3).
    destruct (nth_error (strs m3) r); [|discriminate]. destruct (_ && _); [|discriminate]. injection H as <-. apply wf_put_text, W3.
Qed.
Lemma reached_wf m : reached m -> wf m.
Proof. induction 1; [apply wf_start|]. eapply exec_wf; eassumption. Qed.

Ltac parts := repeat match goal with |- _ /\ _ => split end.
(** ** What a memory shows *)
Definition show_cont (ts : list (list Z)) (k : cont cell) : cont value := Cont (keys k) (map (shown ts) (cells k)).
Lemma shows_nth m c : nth_error (shows m) c = option_map (show_cont (strs m)) (nth_error (conts m) c).
Proof. apply nth_error_map. Qed.
Lemma shows_some m c ks vs : nth_error (shows m) c = Some (Cont ks vs) ->
  exists cs, nth_error (conts m) c = Some (Cont ks cs) /\ vs = map (shown (strs m)) cs.
Proof.
  rewrite shows_nth. destruct (nth_error (conts m) c) as [[k cs]|]; [|discriminate]. intros H. injection H as <- <-. eauto.
Qed.
Lemma shows_of m c ks cs : nth_error (conts m) c = Some (Cont ks cs) -> nth_error (shows m) c = Some (Cont ks (map (shown (strs m)) cs)).
Proof. rewrite shows_nth. intros ->. reflexivity. Qed.
Lemma shows_length m : List.length (shows m) = List.length (conts m).
Proof. apply map_length. Qed.
Lemma obs_shows m c i v : obs m c i = Some v <-> exists ks vs, nth_error (shows m) c = Some (Cont ks vs) /\ nth_error vs i = Some v.
Proof.
  unfold obs, get_cell. rewrite shows_nth. destruct (nth_error (conts m) c) as [[ks cs]|]; cbn [option_map show_cont keys cells].
  - rewrite <- nth_error_map. unfold show_cont. cbn [keys cells]. split; [eauto|]. intros [k [vs [E H]]]. injection E as <- <-. exact H.
  - split; [discriminate|]. intros [k [vs [E H]]]. discriminate.
Qed.

Lemma shown_extends m m' x : extends m m' -> valid m x -> shown (strs m') x = shown (strs m) x.
Proof.
  intros [_ E] V. destruct x; try reflexivity. cbn [shown valid] in *.
  destruct (nth_error (strs m) r) as [t|] eqn:N; [|apply nth_error_None in N; lia]. rewrite (E _ _ N). reflexivity.
Qed.
Lemma map_shown ts ts' cs : (forall x, In x cs -> shown ts' x = shown ts x) -> map (shown ts') cs = map (shown ts) cs.
Proof. intros H. apply map_ext_in. exact H. Qed.
Lemma in_cont m c k x : wf m -> nth_error (conts m) c = Some k -> In x (cells k) -> valid m x.
Proof.
  intros W H I. apply In_nth_error in I. destruct I as [i I]. eapply wf_get; [exact W|]. apply get_cell_cont. eauto.
Qed.
Lemma show_cont_extends m m' c k : wf m -> extends m m' -> nth_error (conts m) c = Some k ->
  show_cont (strs m') k = show_cont (strs m) k.
Proof.
  intros W E H. unfold show_cont. f_equal. apply map_shown. intros x I. apply shown_extends; [exact E|]. exact (in_cont m c k x W H I).
Qed.
Lemma shows_extends m m' c k : wf m -> extends m m' -> nth_error (shows m) c = Some k -> nth_error (shows m') c = Some k.
Proof.
  intros W E. rewrite !shows_nth. destruct (nth_error (conts m) c) as [o|] eqn:N; [|discriminate].
  intros H. injection H as <-. rewrite (proj1 E _ _ N). cbn [option_map]. f_equal. exact (show_cont_extends m m' c o W E N).
Qed.
Lemma shows_same_conts m m' : wf m -> extends m m' -> conts m' = conts m -> shows m' = shows m.
Proof.
  intros W E C. apply nth_error_ext. intros c. rewrite !shows_nth, C. destruct (nth_error (conts m) c) as [o|] eqn:N; [|reflexivity].
  cbn [option_map]. f_equal. exact (show_cont_extends m m' c o W E N).
Qed.
Lemma shows_new_cont m ks : shows (fst (new_cont m ks)) = shows m ++ [Cont ks []].
Proof. unfold shows. cbn [new_cont fst conts strs]. rewrite map_app. reflexivity. Qed.

Lemma changed_det s s1 s2 c i v : changed s s1 c i v -> changed s s2 c i v -> s1 = s2.
Proof.
  intros [L1 [O1 [k1 [a1 [b1 [A1 [B1 [I1 [N1 [S1 R1]]]]]]]]]] [L2 [O2 [k2 [a2 [b2 [A2 [B2 [I2 [N2 [S2 R2]]]]]]]]]].
  rewrite A1 in A2. injection A2 as <- <-. apply nth_error_ext. intros d. destruct (Nat.eq_dec d c) as [->|D].
  - rewrite B1, B2. do 2 f_equal. apply nth_error_ext. intros j. destruct (Nat.eq_dec j i) as [->|J]; [congruence|].
    rewrite R1, R2 by exact J. reflexivity.
  - rewrite O1, O2 by exact D. reflexivity.
Qed.
Lemma added_det s s1 s2 c k v : added s s1 c k v -> added s s2 c k v -> s1 = s2.
Proof.
  intros [L1 [O1 A1]] [L2 [O2 A2]]. apply nth_error_ext. intros d. destruct (Nat.eq_dec d c) as [->|D].
  - destruct k as [k|].
    + destruct A1 as [a [b [X [_ Y]]]], A2 as [a' [b' [X' [_ Y']]]]. rewrite X in X'. injection X' as <- <-. congruence.
    + destruct A1 as [b [X Y]], A2 as [b' [X' Y']]. rewrite X in X'. injection X' as <-. congruence.
  - rewrite O1, O2 by exact D. reflexivity.
Qed.

Lemma set_cell_changed m c i x y : get_cell m c i = Some y -> changed (shows m) (shows (set_cell m c i x)) c i (shown (strs m) x).
Proof.
  intros G. apply get_cell_cont in G. destruct G as [[ks cs] [Hc Hi]]. cbn [cells] in Hi. pose proof (nth_error_lt _ _ _ Hc). pose proof (nth_error_lt _ _ _ Hi).
  unfold set_cell. rewrite Hc. cbn [keys cells]. split; [rewrite !shows_length; apply put_length|]. split.
  - intros d D. rewrite !shows_nth. cbn [conts strs]. rewrite put_other by exact D. reflexivity.
  - exists ks, (map (shown (strs m)) cs), (map (shown (strs m)) (put cs i x)). rewrite !shows_nth. cbn [conts strs]. rewrite put_same, Hc by assumption.
    rewrite !map_length, put_length. parts; auto.
    + rewrite put_map. apply put_same. rewrite map_length. assumption.
    + intros j J. rewrite put_map. apply put_other. exact J.
Qed.
Lemma add_cell_added m c k x o : nth_error (conts m) c = Some o -> key_ok o k ->
  added (shows m) (shows (add_cell m c k x)) c k (shown (strs m) x).
Proof.
  intros Hc K. pose proof (nth_error_lt _ _ _ Hc). destruct o as [ks cs]. unfold key_ok in K. cbn [keys] in K.
  unfold add_cell. rewrite Hc. cbn [keys cells]. split; [rewrite !shows_length; apply put_length|]. split.
  - intros d D. rewrite !shows_nth. cbn [conts strs]. rewrite put_other by exact D. reflexivity.
  - rewrite !shows_nth. cbn [conts strs]. rewrite put_same, Hc by assumption. cbn [option_map]. unfold show_cont. cbn [keys cells].
    rewrite map_app. destruct ks as [ks|], k as [k|]; try (exfalso; exact K); [exists ks|]; exists (map (shown (strs m)) cs); auto.
Qed.
Lemma put_text_changed m c i r t : wf m -> get_cell m c i = Some (CStr r) ->
  changed (shows m) (shows (Mem (conts m) (put (strs m) r t))) c i (VText t).
Proof.
  intros W G. pose proof (wf_get _ _ _ _ W G) as V. cbn in V. pose proof G as G0. apply get_cell_cont in G. destruct G as [[ks cs] [Hc Hi]]. cbn [cells] in Hi.
  assert (O : forall d j x, ~ (d = c /\ j = i) -> get_cell m d j = Some x -> shown (put (strs m) r t) x = shown (strs m) x).
  { intros d j x N H. destruct x; try reflexivity. cbn [shown]. rewrite put_other; [reflexivity|]. intros ->.
    destruct W as [_ [W _]]. apply N. exact (W _ _ _ _ _ H G0). }
  split; [rewrite !shows_length; reflexivity|]. split.
  - intros d D. rewrite !shows_nth. cbn [conts strs]. destruct (nth_error (conts m) d) as [k|] eqn:E; [|reflexivity]. cbn [option_map].
    f_equal. unfold show_cont. f_equal. apply map_shown. intros x I. apply In_nth_error in I. destruct I as [j I].
    apply (O d j); [tauto|]. apply get_cell_cont. eauto.
  - exists ks, (map (shown (strs m)) cs), (map (shown (put (strs m) r t)) cs). rewrite !shows_nth. cbn [conts strs]. rewrite Hc.
    rewrite !map_length. parts; auto.
    + eapply nth_error_lt, Hi.
    + rewrite nth_error_map, Hi. cbn. rewrite put_same by exact V. reflexivity.
    + intros j J. rewrite !nth_error_map. destruct (nth_error cs j) as [x|] eqn:E; [|reflexivity]. cbn. f_equal.
      apply (O c j); [tauto|]. apply get_cell_cont. exists (Cont ks cs). auto.
Qed.

(** ** Reads *)
Lemma int32_fits z : fits32 z -> int32 z = z.
Proof. unfold fits32, int32. intros H. rewrite Z.mod_small; lia. Qed.

Lemma access_array m c cs z : nth_error (conts m) c = Some (Cont None cs) -> fits32 z ->
  access m (CRef c) (CI z) = if (Z.of_nat (List.length cs) <=? z) || (z <? 0) then Thr else Ok (PCell c (Z.to_nat z)).
Proof. intros H F. unfold access. rewrite H. cbn [rbind]. rewrite int32_fits by exact F. reflexivity. Qed.
Lemma access_array_in m c cs z : nth_error (conts m) c = Some (Cont None cs) -> fits32 z -> 0 <= z < Z.of_nat (List.length cs) ->
  access m (CRef c) (CI z) = Ok (PCell c (Z.to_nat z)).
Proof.
  intros H F B. rewrite (access_array m c cs z H F). rewrite (proj2 (Z.leb_gt _ _)), (proj2 (Z.ltb_ge _ _)) by lia. reflexivity.
Qed.
Lemma access_object m c ks cs r k : nth_error (conts m) c = Some (Cont (Some ks) cs) -> nth_error (strs m) r = Some k ->
  access m (CRef c) (CStr r) = Ok (match find_key k ks with Some p => PCell c p | None => PNew c k end).
Proof. intros H E. unfold access. rewrite H, E. destruct (find_key k ks); reflexivity. Qed.

(** Inverting [shown]. *)
Lemma shown_ref ts x c : shown ts x = VRef c -> x = CRef c.
Proof. destruct x; cbn; try discriminate; [destruct (nth_error ts r); discriminate|]. congruence. Qed.
Lemma shown_int ts x z : shown ts x = VI z -> x = CI z.
Proof. destruct x; cbn; try discriminate; [congruence|]. destruct (nth_error ts r); discriminate. Qed.
Lemma shown_text ts x t : shown ts x = VText t -> exists r, x = CStr r /\ nth_error ts r = Some t.
Proof. destruct x; cbn; try discriminate. destruct (nth_error ts r) eqn:E; [|discriminate]. intros H. injection H as ->. eauto. Qed.

(** Result of evaluating [e] from [m]. *)
Definition gives (m : mem) (e : expr) (s : state) (v : value) : Prop :=
  exists m' x, eval m e = Ok (m', x) /\ shows m' = s /\ shown (strs m') x = v /\ wf m' /\ valid m' x /\ extends m m'.
Definition makes (m : mem) (l : lit) (s : state) (c : nat) : Prop :=
  exists m', build m l = Ok (m', c) /\ shows m' = s /\ wf m' /\ extends m m' /\ (List.length (conts m) <= c < List.length (conts m'))%nat.

Lemma eval_gives m e m' x : wf m -> eval m e = Ok (m', x) -> gives m e (shows m') (shown (strs m') x).
Proof. intros W H. destruct (eval_wf _ _ _ _ W H). exists m', x. parts; auto. eapply eval_extends, H. Qed.

Lemma index_gives m a i s v m1 x m2 y w : wf m ->
  eval m a = Ok (m1, x) -> eval m1 i = Ok (m2, y) -> load_item m2 x y = Ok w ->
  shows m2 = s -> shown (strs m2) w = v -> gives m (EIdx a i) s v.
Proof.
  intros W A B L <- <-. apply eval_gives; [exact W|]. cbn [eval]. rewrite A. cbn [rbind fst snd]. rewrite B. cbn [rbind fst snd]. rewrite L. reflexivity.
Qed.

(** The two sides of an access, with the left value still what it was. *)
Lemma two_sides m a i s1 v s2 w (W : wf m) (A : gives m a s1 v) (B : forall m1, wf m1 -> shows m1 = s1 -> gives m1 i s2 w) :
  exists m1 x m2 y, eval m a = Ok (m1, x) /\ eval m1 i = Ok (m2, y) /\ shows m2 = s2 /\ shown (strs m2) x = v /\ shown (strs m2) y = w /\
    wf m2 /\ valid m2 x /\ valid m2 y /\ extends m1 m2 /\ extends m m1.
Proof.
  destruct A as [m1 [x [EA [<- [<- [W1 [V1 X1]]]]]]]. destruct (B m1 W1 eq_refl) as [m2 [y [EB [<- [<- [W2 [V2 X2]]]]]]].
  exists m1, x, m2, y. rewrite (shown_extends _ _ _ X2 V1). parts; auto. exact (extends_valid _ _ _ X2 V1).
Qed.

Scheme Means_ind2 := Induction for Means Sort Prop
with Makes_ind2 := Induction for Makes Sort Prop.
Combined Scheme Means_Makes_ind from Means_ind2, Makes_ind2.

(** The value of an element, before and after. *)
Lemma push_sound m l s1 c e s2 v k s3 : wf m ->
  (makes m l s1 c) -> (forall m1, wf m1 -> shows m1 = s1 -> gives m1 e s2 v) -> tidy v ->
  (k = None -> added s2 s3 c None v -> makes m (LPush l e) s3 c) /\
  (forall q, k = Some q ->
     (added s2 s3 c (Some q) v -> makes m (LField l q e) s3 c) /\
     (forall ks vs p w, nth_error s2 c = Some (Cont (Some ks) vs) -> at_key ks vs q p w -> changed s2 s3 c p v -> makes m (LField l q e) s3 c)).
Proof.
  intros W [m1 [B1 [<- [W1 [X1 L1]]]]] E T. destruct (E m1 W1 eq_refl) as [m2 [x [E2 [<- [<- [W2 [V2 X2]]]]]]].
  assert (I : exists m3 y, item m2 x = Ok (m3, y)).
  { destruct x; cbn [item]; eauto. cbn in V2. destruct (nth_error (strs m2) r) eqn:N; [|apply nth_error_None in N; lia].
    eexists _, _. reflexivity. }
  destruct I as [m3 [y I]]. destruct (item_ok _ _ _ _ I W2 V2) as [X3 [C3 [W3 [V3 [F3 T3]]]]].
  specialize (T3 T). pose proof (shows_same_conts _ _ W2 X3 C3) as S3. rewrite <- S3. rewrite <- T3.
  assert (Z : forall l' m4, build m l' = Ok (m4, c) -> shows m4 = s3 -> makes m l' s3 c).
  { intros l' m4 H S. destruct (build_extends _ _ _ _ H). exists m4. split; [exact H|]. split; [exact S|]. split; [exact (build_wf _ _ _ _ W H)|]. auto. }
  split; [intros ->|intros q ->; split].
  - intros A. pose proof A as A'. destruct A' as [_ [_ [vs [Hc _]]]]. apply shows_some in Hc. destruct Hc as [cs [Hc _]].
    apply (Z _ (add_cell m3 c None y)).
    + cbn [build]. rewrite B1. cbn [rbind fst snd]. rewrite E2. cbn [rbind fst snd]. rewrite I. cbn [rbind fst snd]. rewrite Hc. reflexivity.
    + eapply added_det; [|exact A]. eapply add_cell_added; [exact Hc|exact Logic.I].
  - intros A. pose proof A as A'. destruct A' as [_ [_ [ks [vs [Hc [N _]]]]]]. apply shows_some in Hc. destruct Hc as [cs [Hc _]].
    apply (Z _ (add_cell m3 c (Some q) y)).
    + cbn [build]. rewrite B1. cbn [rbind fst snd]. rewrite E2. cbn [rbind fst snd]. rewrite I. cbn [rbind fst snd]. rewrite Hc.
      rewrite (proj2 (find_key_none q ks) N). reflexivity.
    + eapply added_det; [|exact A]. eapply add_cell_added; [exact Hc|exact N].
  - intros ks vs p w Hc K A. apply at_key_find in K. apply shows_some in Hc. destruct Hc as [cs [Hc _]].
    apply (Z _ (set_cell m3 c p y)).
    + cbn [build]. rewrite B1. cbn [rbind fst snd]. rewrite E2. cbn [rbind fst snd]. rewrite I. cbn [rbind fst snd]. rewrite Hc.
      rewrite K. reflexivity.
    + destruct (find_key_cell m3 c ks cs p q W3 Hc K) as [o O]. eapply changed_det; [|exact A]. eapply set_cell_changed. exact O.
Qed.

Lemma means_makes_sound :
  (forall s e s' v, Means s e s' v -> forall m, wf m -> shows m = s -> gives m e s' v) /\
  (forall s l s' c, Makes s l s' c -> forall m, wf m -> shows m = s -> makes m l s' c).
Proof.
  apply Means_Makes_ind.
  - intros s k m W <-.
    destruct k; try (exists m; eexists; split; [reflexivity|]; parts; auto using extends_refl; exact Logic.I).
    replace (shows m) with (shows (fst (new_text m t))).
    + replace (const_value (KS t)) with (shown (strs (fst (new_text m t))) (CStr (snd (new_text m t)))).
      * apply eval_gives; [exact W|]. reflexivity.
      * cbn. rewrite nth_error_last. reflexivity.
    + apply shows_same_conts; [exact W|apply extends_text|reflexivity].
  - intros s x ks vs v Hc Hx m W <-. apply shows_some in Hc. destruct Hc as [cs [Hc ->]]. rewrite nth_error_map in Hx.
    destruct (nth_error cs x) as [y|] eqn:N; [|discriminate]. injection Hx as <-. apply eval_gives; [exact W|].
    cbn [eval]. unfold get_cell. rewrite Hc. cbn [cells]. rewrite N. reflexivity.
  - intros s a s1 i s2 c z vs v _ IHa _ IHi Hc Hz F Hv m W <-.
    destruct (two_sides m a i s1 (VRef c) s2 (VI z) W (IHa m W eq_refl) IHi) as [m1 [x [m2 [y [EA [EB [<- [Vx [Vy [W2 _]]]]]]]]]].
    apply shown_ref in Vx. apply shown_int in Vy. subst x y. apply shows_some in Hc. destruct Hc as [cs [Hc ->]].
    rewrite nth_error_map in Hv. destruct (nth_error cs (Z.to_nat z)) as [w|] eqn:N; [|discriminate]. injection Hv as <-.
    eapply index_gives; [exact W|exact EA|exact EB| |reflexivity|reflexivity].
    unfold load_item. rewrite (access_array_in m2 c cs z Hc F) by (apply nth_error_lt in N; lia). cbn [rbind].
    unfold get_cell. rewrite Hc. cbn [cells]. rewrite N. reflexivity.
  - intros s a s1 i s2 c k ks vs p v _ IHa _ IHi Hc K m W <-.
    destruct (two_sides m a i s1 (VRef c) s2 (VText k) W (IHa m W eq_refl) IHi) as [m1 [x [m2 [y [EA [EB [<- [Vx [Vy [W2 _]]]]]]]]]].
    apply shown_ref in Vx. apply shown_text in Vy. destruct Vy as [r [-> Hr]]. subst x. apply shows_some in Hc. destruct Hc as [cs [Hc ->]].
    pose proof K as [_ [_ Kv]]. rewrite nth_error_map in Kv. destruct (nth_error cs p) as [w|] eqn:N; [|discriminate]. injection Kv as <-.
    eapply index_gives; [exact W|exact EA|exact EB| |reflexivity|reflexivity].
    unfold load_item. rewrite (access_object m2 c ks cs r k Hc Hr). rewrite (at_key_find _ _ _ _ _ K). cbn [rbind].
    unfold get_cell. rewrite Hc. cbn [cells]. rewrite N. reflexivity.
  - intros s a s1 i s2 t z b _ IHa _ IHi Hz Hb Rb m W <-.
    destruct (two_sides m a i s1 (VText t) s2 (VI z) W (IHa m W eq_refl) IHi) as [m1 [x [m2 [y [EA [EB [<- [Vx [Vy [W2 _]]]]]]]]]].
    apply shown_text in Vx. destruct Vx as [r [-> Hr]]. apply shown_int in Vy. subst y.
    eapply index_gives; [exact W|exact EA|exact EB| |reflexivity|].
    + unfold load_item. cbn [access rbind]. rewrite Hr. unfold byte_at. pose proof (nth_error_lt _ _ _ Hb).
      rewrite (proj2 (Z.ltb_ge z 0)), (proj2 (Z.ltb_ge _ z)) by lia. cbn [orb rbind]. reflexivity.
    + cbn [shown]. rewrite (nth_error_nth _ _ 0 Hb). unfold signed8. rewrite (proj2 (Z.ltb_lt b 128)) by lia. reflexivity.
  - intros s l s1 c _ IH m W <-. destruct (IH m W eq_refl) as [m1 [B [<- [W1 [X L]]]]].
    exists m1, (CRef c). cbn [eval]. rewrite B. cbn [rbind fst snd]. parts; auto. cbn. lia.
  - intros s m W <-. exists (fst (new_cont m None)). rewrite shows_length. split; [reflexivity|]. split; [apply shows_new_cont|].
    split; [apply wf_new_cont; auto|]. split; [apply extends_cont|]. cbn. rewrite app_length. cbn. lia.
  - intros s m W <-. exists (fst (new_cont m (Some []))). rewrite shows_length. split; [reflexivity|]. split; [apply shows_new_cont|].
    split; [apply wf_new_cont; auto|]. split; [apply extends_cont|]. cbn. rewrite app_length. cbn. lia.
  - intros s l s1 c e s2 v s3 _ IHl _ IHe T A m W <-.
    exact (proj1 (push_sound m l s1 c e s2 v None s3 W (IHl m W eq_refl) IHe T) eq_refl A).
  - intros s l s1 c k e s2 v s3 _ IHl _ IHe T A m W <-.
    exact (proj1 (proj2 (push_sound m l s1 c e s2 v (Some k) s3 W (IHl m W eq_refl) IHe T) k eq_refl) A).
  - intros s l s1 c k e s2 v s3 ks vs p w _ IHl _ IHe T Hc K A m W <-.
    exact (proj2 (proj2 (push_sound m l s1 c e s2 v (Some k) s3 W (IHl m W eq_refl) IHe T) k eq_refl) ks vs p w Hc K A).
Qed.
Lemma means_sound m e s' v : wf m -> Means (shows m) e s' v -> gives m e s' v.
Proof. intros W H. exact (proj1 means_makes_sound _ _ _ _ H m W eq_refl). Qed.
Lemma makes_sound m l s' c : wf m -> Makes (shows m) l s' c -> makes m l s' c.
Proof. intros W H. exact (proj2 means_makes_sound _ _ _ _ H m W eq_refl). Qed.
Lemma sides_sound m a i s1 v s2 w : wf m -> Means (shows m) a s1 v -> Means s1 i s2 w ->
  exists m1 x m2 y, eval m a = Ok (m1, x) /\ eval m1 i = Ok (m2, y) /\ shows m2 = s2 /\ shown (strs m2) x = v /\ shown (strs m2) y = w /\
    wf m2 /\ valid m2 x /\ valid m2 y /\ extends m1 m2 /\ extends m m1.
Proof.
  intros W A B. apply (two_sides m a i s1 v s2 w W (means_sound _ _ _ _ W A)). intros m1 W1 <-. apply means_sound; assumption.
Qed.

(** ** Errors *)
Lemma load_thr m a i m1 x m2 y : eval m a = Ok (m1, x) -> eval m1 i = Ok (m2, y) -> load_item m2 x y = Thr -> eval m (EIdx a i) = Thr.
Proof. intros A B L. cbn [eval]. rewrite A. cbn [rbind fst snd]. rewrite B. cbn [rbind fst snd]. rewrite L. reflexivity. Qed.
Lemma access_thr_load m x y : access m x y = Thr -> load_item m x y = Thr.
Proof. intros H. unfold load_item. rewrite H. reflexivity. Qed.
Lemma access_no_container m x y v : shown (strs m) x = v -> no_container v -> valid m x -> access m x y = Thr.
Proof.
  intros <- N V. destruct x; try reflexivity; cbn [shown no_container valid] in *; [|destruct N].
  destruct (nth_error (strs m) r) eqn:E; [destruct N|]. apply nth_error_None in E. lia.
Qed.
Lemma access_range m c cs z : nth_error (conts m) c = Some (Cont None cs) -> fits32 z -> ~ 0 <= z < Z.of_nat (List.length cs) ->
  access m (CRef c) (CI z) = Thr.
Proof.
  intros H F N. rewrite (access_array m c cs z H F). destruct ((Z.of_nat (List.length cs) <=? z) || (z <? 0)) eqn:B; [reflexivity|].
  apply orb_false_iff in B. rewrite Z.leb_gt, Z.ltb_ge in B. lia.
Qed.

Scheme Fails_ind2 := Induction for Fails Sort Prop
with FailsLit_ind2 := Induction for FailsLit Sort Prop.
Combined Scheme Fails_FailsLit_ind from Fails_ind2, FailsLit_ind2.

Lemma fails_sound_both :
  (forall s e, Fails s e -> forall m, wf m -> shows m = s -> eval m e = Thr) /\
  (forall s l, FailsLit s l -> forall m, wf m -> shows m = s -> build m l = Thr).
Proof.
  apply Fails_FailsLit_ind.
  - intros s a i _ IH m W S. cbn [eval]. rewrite (IH m W S). reflexivity.
  - intros s a i s1 v A _ IH m W <-. destruct (means_sound _ _ _ _ W A) as [m1 [x [E [S1 [_ [W1 _]]]]]].
    cbn [eval]. rewrite E. cbn [rbind fst snd]. rewrite (IH m1 W1 S1). reflexivity.
  - intros s a i s1 v s2 w A B N m W <-. destruct (sides_sound _ _ _ _ _ _ _ W A B) as [m1 [x [m2 [y [EA [EB [_ [Vx [_ [_ [V _]]]]]]]]]]].
    eapply load_thr; [exact EA|exact EB|]. apply access_thr_load. eapply access_no_container; eassumption.
  - intros s a i s1 c s2 z vs A B Hc F N m W <-. destruct (sides_sound _ _ _ _ _ _ _ W A B) as [m1 [x [m2 [y [EA [EB [<- [Vx [Vy _]]]]]]]]].
    apply shown_ref in Vx. apply shown_int in Vy. subst x y. apply shows_some in Hc. destruct Hc as [cs [Hc ->]]. rewrite map_length in N.
    eapply load_thr; [exact EA|exact EB|]. apply access_thr_load. eapply access_range; eassumption.
  - intros s a i s1 c s2 w vs A B Hc N1 N2 m W <-. destruct (sides_sound _ _ _ _ _ _ _ W A B) as [m1 [x [m2 [y [EA [EB [<- [Vx [Vy _]]]]]]]]].
    apply shown_ref in Vx. subst x. apply shows_some in Hc. destruct Hc as [cs [Hc ->]].
    eapply load_thr; [exact EA|exact EB|]. apply access_thr_load. unfold access. rewrite Hc.
    destruct y; try reflexivity; cbn [shown] in Vy; [destruct (N1 z); congruence|destruct (N2 f); congruence].
  - intros s a i s1 c s2 k ks vs A B Hc N m W <-. destruct (sides_sound _ _ _ _ _ _ _ W A B) as [m1 [x [m2 [y [EA [EB [<- [Vx [Vy _]]]]]]]]].
    apply shown_ref in Vx. subst x. apply shown_text in Vy. destruct Vy as [r [-> Hr]]. apply shows_some in Hc. destruct Hc as [cs [Hc ->]].
    eapply load_thr; [exact EA|exact EB|]. unfold load_item. rewrite (access_object m2 c ks cs r k Hc Hr), (proj2 (find_key_none k ks) N). reflexivity.
  - intros s a i s1 c s2 w ks vs A B Hc N m W <-. destruct (sides_sound _ _ _ _ _ _ _ W A B) as [m1 [x [m2 [y [EA [EB [<- [Vx [Vy [_ [_ [V _]]]]]]]]]]]].
    apply shown_ref in Vx. subst x. apply shows_some in Hc. destruct Hc as [cs [Hc ->]].
    eapply load_thr; [exact EA|exact EB|]. apply access_thr_load. unfold access. rewrite Hc. destruct y; try reflexivity.
    cbn [shown valid] in *. destruct (nth_error (strs m2) r) as [t|] eqn:E; [destruct (N t); congruence|apply nth_error_None in E; lia].
  - intros s a i s1 t s2 w A B N m W <-. destruct (sides_sound _ _ _ _ _ _ _ W A B) as [m1 [x [m2 [y [EA [EB [<- [Vx [Vy _]]]]]]]]].
    apply shown_text in Vx. destruct Vx as [r [-> Hr]]. eapply load_thr; [exact EA|exact EB|]. apply access_thr_load.
    destruct y; try reflexivity. destruct (N z). symmetry. exact Vy.
  - intros s l _ IH m W S. cbn [eval]. rewrite (IH m W S). reflexivity.
  - intros s l e _ IH m W S. cbn [build]. rewrite (IH m W S). reflexivity.
  - intros s l e s1 c A _ IH m W <-. destruct (makes_sound _ _ _ _ W A) as [m1 [B [S1 [W1 _]]]]. cbn [build]. rewrite B. cbn [rbind fst snd].
    rewrite (IH m1 W1 S1). reflexivity.
  - intros s l k e _ IH m W S. cbn [build]. rewrite (IH m W S). reflexivity.
  - intros s l k e s1 c A _ IH m W <-. destruct (makes_sound _ _ _ _ W A) as [m1 [B [S1 [W1 _]]]]. cbn [build]. rewrite B. cbn [rbind fst snd].
    rewrite (IH m1 W1 S1). reflexivity.
Qed.
Lemma fails_sound m e : wf m -> Fails (shows m) e -> eval m e = Thr.
Proof. intros W H. exact (proj1 fails_sound_both _ _ H m W eq_refl). Qed.

(** ** Statements *)
Lemma store_changed m c i v y : wf m -> get_cell m c i = Some y -> valid m v -> tidy (shown (strs m) v) ->
  exists m', store m c i v = Ok m' /\ changed (shows m) (shows m') c i (shown (strs m) v).
Proof.
  intros W G V T. unfold store. rewrite G.
  destruct v; try (eexists; split; [reflexivity|]; eapply set_cell_changed; exact G).
  cbn [valid shown] in *. destruct (nth_error (strs m) r) as [t|] eqn:N; [|apply nth_error_None in N; lia].
  cbn [tidy] in T. rewrite (set_text_plain t T).
  assert (New : exists m', (let (m', r') := new_text m t in Ok (set_cell m' c i (CStr r'))) = Ok m' /\ changed (shows m) (shows m') c i (VText t)).
  { eexists. split; [reflexivity|].
    rewrite <- (shows_same_conts m (fst (new_text m t)) W (extends_text m t) eq_refl).
    replace (VText t) with (shown (strs (fst (new_text m t))) (CStr (snd (new_text m t)))) by (cbn; rewrite nth_error_last; reflexivity).
    apply (set_cell_changed (fst (new_text m t)) c i (CStr (snd (new_text m t))) y). exact G. }
  destruct y; try exact New. eexists. split; [reflexivity|]. apply put_text_changed; assumption.
Qed.

Lemma changed_cell m s' c i v : changed (shows m) s' c i v -> exists y, get_cell m c i = Some y.
Proof.
  intros [_ [_ [ks [vs [vs' [A [_ [I _]]]]]]]]. apply shows_some in A. destruct A as [cs [A ->]]. rewrite map_length in I.
  destruct (nth_error cs i) as [y|] eqn:N; [|apply nth_error_None in N; lia]. exists y. apply get_cell_cont. eexists; split; [exact A|exact N].
Qed.

(** A stored value that was evaluated before the destination. *)
Lemma dest_sound m e s1 v a s2 w i s3 u : wf m -> Means (shows m) e s1 v -> Means s1 a s2 w -> Means s2 i s3 u ->
  exists m1 x m2 y m3 z, eval m e = Ok (m1, x) /\ eval m1 a = Ok (m2, y) /\ eval m2 i = Ok (m3, z) /\ shows m3 = s3 /\
    shown (strs m3) x = v /\ shown (strs m3) y = w /\ shown (strs m3) z = u /\ wf m3 /\ valid m3 x /\ valid m3 y /\ valid m3 z.
Proof.
  intros W A B C. destruct (means_sound _ _ _ _ W A) as [m1 [x [E [<- [<- [W1 [V1 X1]]]]]]].
  destruct (sides_sound _ _ _ _ _ _ _ W1 B C) as [m2 [y [m3 [z [EA [EB [S3 [Vy [Vz [W3 [Qy [Qz [Xa Xb]]]]]]]]]]]]].
  exists m1, x, m2, y, m3, z. pose proof (extends_trans _ _ _ Xb Xa) as X. rewrite (shown_extends _ _ _ X V1).
  parts; auto. exact (extends_valid _ _ _ X V1).
Qed.
Lemma exec_idx m a i e m1 x m2 y m3 z p : eval m e = Ok (m1, x) -> eval m1 a = Ok (m2, y) -> eval m2 i = Ok (m3, z) -> access m3 y z = p ->
  exec m (SSet (DIdx a i) e) =
  (do p <- p; match p with
          | PCell c k => store m3 c k x
          | PNew c k => match nth_error (conts m3) c with
                        | Some o => store (add_cell m3 c (Some k) CU) c (List.length (cells o)) x
                        | None => UB
                        end
          | PChar q z => store_char m3 q z x
          end).
Proof. intros A B C <-. cbn [exec]. rewrite A. cbn [rbind fst snd]. rewrite B. cbn [rbind fst snd]. rewrite C. reflexivity. Qed.

(** A new field is first undefined, then stored to. *)
Lemma added_changed s s1 s2 c k v w ks vs : nth_error s c = Some (Cont (Some ks) vs) ->
  added s s1 c (Some k) w -> changed s1 s2 c (List.length vs) v -> added s s2 c (Some k) v.
Proof.
  intros H [L1 [O1 [ks1 [vs1 [A1 [N1 B1]]]]]] [L2 [O2 [k2 [a2 [b2 [A2 [B2 [I2 [M2 [S2 R2]]]]]]]]]].
  rewrite H in A1. injection A1 as <- <-. rewrite B1 in A2. injection A2 as <- <-. split; [congruence|]. split.
  - intros d D. rewrite O2, O1 by exact D. reflexivity.
  - exists ks, vs. split; [exact H|]. split; [exact N1|]. rewrite B2. do 2 f_equal. apply nth_error_ext. intros j.
    destruct (lt_eq_lt_dec j (List.length vs)) as [[J| -> ]|J].
    + rewrite R2 by lia. rewrite !nth_error_app1 by exact J. reflexivity.
    + rewrite S2, nth_error_last. reflexivity.
    + rewrite R2 by lia. rewrite !nth_error_app2 by lia. destruct (j - List.length vs)%nat eqn:Q; [lia|]. destruct n; reflexivity.
Qed.

(** The string kept at a place. *)
Lemma place_sound m a s' c p : wf m -> Place (shows m) a s' c p ->
  exists m' x, eval m a = Ok (m', x) /\ shows m' = s' /\ wf m' /\ get_cell m' c p = Some x /\ valid m' x /\ extends m m'.
Proof.
  intros W P. remember (shows m) as s eqn:S. destruct P as [s x ks vs v H Hv|s a s1 i s2 c z vs' A B Hc R F|s a s1 i s2 c k ks' vs' q w A B Hc K]; subst s.
  - apply shows_some in H. destruct H as [cs [H ->]]. rewrite nth_error_map in Hv. destruct (nth_error cs x) as [y|] eqn:N; [|discriminate].
    assert (G : get_cell m 0 x = Some y) by (apply get_cell_cont; eexists; split; [exact H|exact N]).
    exists m, y. cbn [eval]. rewrite G. parts; auto; [|apply extends_refl]. eapply wf_get; eassumption.
  - destruct (sides_sound _ _ _ _ _ _ _ W A B) as [m1 [x [m2 [y [EA [EB [<- [Vx [Vy [W2 [_ [_ [X1 X2]]]]]]]]]]]]].
    apply shown_ref in Vx. apply shown_int in Vy. subst x y. apply shows_some in Hc. destruct Hc as [cs [H ->]]. rewrite map_length in R.
    destruct (nth_error cs (Z.to_nat z)) as [y|] eqn:N; [|apply nth_error_None in N; lia].
    assert (G : get_cell m2 c (Z.to_nat z) = Some y) by (apply get_cell_cont; eexists; split; [exact H|exact N]).
    exists m2, y. parts; auto; [|eapply wf_get; eassumption|exact (extends_trans _ _ _ X2 X1)].
    + cbn [eval]. rewrite EA. cbn [rbind fst snd]. rewrite EB. cbn [rbind fst snd]. unfold load_item.
      rewrite (access_array_in m2 c cs z H F R). cbn [rbind]. rewrite G. reflexivity.
  - destruct (sides_sound _ _ _ _ _ _ _ W A B) as [m1 [x [m2 [y [EA [EB [<- [Vx [Vy [W2 [_ [_ [X1 X2]]]]]]]]]]]]].
    apply shown_ref in Vx. subst x. apply shown_text in Vy. destruct Vy as [r [-> Hr]].
    apply shows_some in Hc. destruct Hc as [cs' [Hc ->]]. pose proof (at_key_find _ _ _ _ _ K) as F.
    destruct (find_key_cell m2 c ks' cs' q k W2 Hc F) as [y G].
    exists m2, y. parts; auto; [|eapply wf_get; eassumption|exact (extends_trans _ _ _ X2 X1)].
    + cbn [eval]. rewrite EA. cbn [rbind fst snd]. rewrite EB. cbn [rbind fst snd]. unfold load_item.
      rewrite (access_object m2 c ks' cs' r k Hc Hr), F. cbn [rbind]. rewrite G. reflexivity.
Qed.

Lemma extends_get m m' c i x : extends m m' -> get_cell m c i = Some x -> get_cell m' c i = Some x.
Proof. intros [E _] H. apply get_cell_cont in H. destruct H as [k [A B]]. apply get_cell_cont. exists k. auto. Qed.

Lemma does_sound m st s' : wf m -> Does (shows m) st s' -> exists m', exec m st = Ok m' /\ shows m' = s'.
Proof.
  intros W D. remember (shows m) as s eqn:S.
  destruct D as [s e s1 v x s2 A T C|s e s1 v a s2 c i s3 z vs s4 A T B I Hc Hz F C|s e s1 v a s2 c i s3 k ks vs p w s4 A T B I Hc K C
                |s e s1 v a s2 c i s3 k s4 A T B I C|s e s1 n a s2 c p i s3 z ks vs t s4 A R P I Hc Hp Hz C]; subst s.
  - destruct (means_sound _ _ _ _ W A) as [m1 [y [E [<- [<- [W1 [V1 _]]]]]]]. destruct (changed_cell _ _ _ _ _ C) as [o G].
    destruct (store_changed m1 0 x y o W1 G V1 T) as [m2 [Hs C2]]. exists m2. cbn [exec]. rewrite E. cbn [rbind fst snd].
    split; [exact Hs|]. eapply changed_det; eassumption.
  - destruct (dest_sound _ _ _ _ _ _ _ _ _ _ W A B I) as [m1 [x [m2 [y [m3 [q [EA [EB [EC [<- [<- [Vy [Vq [W3 [V3 _]]]]]]]]]]]]]]].
    apply shown_ref in Vy. apply shown_int in Vq. subst y q. apply shows_some in Hc. destruct Hc as [cs [Hc ->]].
    destruct (changed_cell _ _ _ _ _ C) as [o G]. destruct (store_changed m3 c (Z.to_nat z) x o W3 G V3 T) as [m4 [Hs C4]].
    exists m4. split; [|eapply changed_det; eassumption]. rewrite (exec_idx _ _ _ _ _ _ _ _ _ _ _ EA EB EC eq_refl).
    rewrite (access_array_in m3 c cs z Hc F); [exact Hs|]. apply get_cell_cont in G. destruct G as [k [Q G]]. rewrite Hc in Q. injection Q as <-.
    apply nth_error_lt in G. cbn [cells] in G. lia.
  - destruct (dest_sound _ _ _ _ _ _ _ _ _ _ W A B I) as [m1 [x [m2 [y [m3 [q [EA [EB [EC [<- [<- [Vy [Vq [W3 [V3 _]]]]]]]]]]]]]]].
    apply shown_ref in Vy. apply shown_text in Vq. destruct Vq as [r [-> Hr]]. subst y. apply shows_some in Hc. destruct Hc as [cs [Hc ->]].
    destruct (changed_cell _ _ _ _ _ C) as [o G]. destruct (store_changed m3 c p x o W3 G V3 T) as [m4 [Hs C4]].
    exists m4. split; [|eapply changed_det; eassumption]. rewrite (exec_idx _ _ _ _ _ _ _ _ _ _ _ EA EB EC eq_refl).
    rewrite (access_object m3 c ks cs r k Hc Hr), (at_key_find _ _ _ _ _ K). exact Hs.
  - destruct (dest_sound _ _ _ _ _ _ _ _ _ _ W A B I) as [m1 [x [m2 [y [m3 [q [EA [EB [EC [<- [<- [Vy [Vq [W3 [V3 _]]]]]]]]]]]]]]].
    apply shown_ref in Vy. apply shown_text in Vq. destruct Vq as [r [-> Hr]]. subst y.
    pose proof C as [_ [_ [ks [vs [Hc [N _]]]]]]. pose proof Hc as Hs. apply shows_some in Hc. destruct Hc as [cs [Hc Ev]].
    pose proof (wf_add_undef m3 c k ks cs W3 Hc N) as W4. pose proof (add_cell_new m3 c (Some k) CU _ Hc) as G. cbn [cells] in G.
    assert (T' : tidy (shown (strs (add_cell m3 c (Some k) CU)) x)) by (rewrite add_cell_strs; exact T).
    destruct (store_changed _ c (List.length cs) x CU W4 G (valid_add_cell _ _ _ _ _ V3) T') as [m4 [E4 C4]].
    exists m4. split.
    + rewrite (exec_idx _ _ _ _ _ _ _ _ _ _ _ EA EB EC eq_refl). rewrite (access_object m3 c ks cs r k Hc Hr), (proj2 (find_key_none k ks) N).
      cbn [rbind]. rewrite Hc. exact E4.
    + eapply added_det; [|exact C]. rewrite add_cell_strs in C4.
      eapply (added_changed _ (shows (add_cell m3 c (Some k) CU)) _ _ _ _ VU); [exact Hs| |].
      * exact (add_cell_added m3 c (Some k) CU _ Hc N).
      * rewrite Ev, map_length. exact C4.
  - destruct (means_sound _ _ _ _ W A) as [m1 [x [EA [<- [Vx [W1 [V1 X1]]]]]]]. apply shown_int in Vx. subst x.
    destruct (place_sound m1 a s2 c p W1 P) as [m2 [y [EB [<- [W2 [G2 [V2 X2]]]]]]].
    destruct (means_sound _ _ _ _ W2 I) as [m3 [q [EC [<- [Vq [W3 [_ X3]]]]]]]. apply shown_int in Vq. subst q.
    pose proof (extends_get _ _ _ _ _ X3 G2) as G3. apply shows_some in Hc. destruct Hc as [cs [Hc ->]].
    pose proof G3 as G4. apply get_cell_cont in G4. destruct G4 as [k4 [Q4 G4]]. rewrite Hc in Q4. injection Q4 as <-. cbn [cells] in G4.
    rewrite nth_error_map, G4 in Hp. injection Hp as Hp. apply shown_text in Hp. destruct Hp as [r [-> Hr]].
    eexists. split.
    + rewrite (exec_idx _ _ _ _ _ _ _ _ _ _ _ EA EB EC eq_refl). cbn [access rbind store_char]. rewrite Hr.
      rewrite (proj2 (Z.leb_le 0 z)), (proj2 (Z.ltb_lt z _)) by lia. cbn [andb]. reflexivity.
    + eapply changed_det; [|exact C]. rewrite (Z.mod_small n 256) by lia. rewrite (put_split t) by lia.
      apply put_text_changed; assumption.
Qed.

Lemma does_all_sound m ss s' : wf m -> DoesAll (shows m) ss s' -> exists m', run m ss = Ok m' /\ shows m' = s' /\ wf m'.
Proof.
  intros W D. remember (shows m) as s eqn:S. revert m W S. induction D as [s|s st s1 ss s2 A _ IH]; intros m W ->.
  - exists m. auto.
  - destruct (does_sound _ _ _ W A) as [m1 [E <-]]. pose proof (exec_wf _ _ _ W E) as W1.
    destruct (IH m1 W1 eq_refl) as [m2 [E2 R]]. exists m2. cbn [run]. rewrite E. auto.
Qed.

Lemma does_fail_sound m st : wf m -> DoesFail (shows m) st -> exec m st = Thr.
Proof.
  intros W D. remember (shows m) as s eqn:S.
  destruct D as [s d e A|s d e s1 v a i -> A B|s d e s1 v a i s2 w -> A B C|s d e s1 v a i s2 w s3 u -> A B C N|s d e s1 v a i s2 c s3 z vs -> A B C Hc F N]; subst s.
  - cbn [exec]. rewrite (fails_sound _ _ W A). reflexivity.
  - destruct (means_sound _ _ _ _ W A) as [m1 [x [E [<- [_ [W1 _]]]]]]. cbn [exec]. rewrite E. cbn [rbind fst snd].
    rewrite (fails_sound _ _ W1 B). reflexivity.
  - destruct (means_sound _ _ _ _ W A) as [m1 [x [E [<- [_ [W1 _]]]]]]. destruct (means_sound _ _ _ _ W1 B) as [m2 [y [E2 [<- [_ [W2 _]]]]]].
    cbn [exec]. rewrite E. cbn [rbind fst snd]. rewrite E2. cbn [rbind fst snd]. rewrite (fails_sound _ _ W2 C). reflexivity.
  - destruct (dest_sound _ _ _ _ _ _ _ _ _ _ W A B C) as [m1 [x [m2 [y [m3 [q [EA [EB [EC [_ [_ [Vy [_ [_ [_ [V _]]]]]]]]]]]]]]]].
    rewrite (exec_idx _ _ _ _ _ _ _ _ _ _ _ EA EB EC eq_refl). rewrite (access_no_container _ _ _ _ Vy N V). reflexivity.
  - destruct (dest_sound _ _ _ _ _ _ _ _ _ _ W A B C) as [m1 [x [m2 [y [m3 [q [EA [EB [EC [<- [_ [Vy [Vq _]]]]]]]]]]]]].
    apply shown_ref in Vy. apply shown_int in Vq. subst y q. apply shows_some in Hc. destruct Hc as [cs [Hc ->]]. rewrite map_length in N.
    rewrite (exec_idx _ _ _ _ _ _ _ _ _ _ _ EA EB EC eq_refl). rewrite (access_range _ _ _ _ Hc F N). reflexivity.
Qed.

(** ** A statement changes one place *)
Definition only (m m' : mem) (c i : nat) : Prop :=
  forall d j v, ~ (d = c /\ j = i) -> obs m d j = Some v -> obs m' d j = Some v.
Lemma changed_only m m' c i v : changed (shows m) (shows m') c i v -> only m m' c i.
Proof.
  intros [L [O [ks [vs [vs' [A [B [I [N [S R]]]]]]]]]] d j w D H. apply obs_shows in H. destruct H as [ks0 [vs0 [H K]]]. apply obs_shows.
  destruct (Nat.eq_dec d c) as [->|E].
  - rewrite A in H. injection H as <- <-. exists ks, vs'. split; [exact B|]. rewrite R; [exact K|]. intros ->. apply D. auto.
  - exists ks0, vs0. rewrite O by exact E. auto.
Qed.
Lemma only_extends m m1 m2 c i : wf m -> extends m m1 -> only m1 m2 c i -> only m m2 c i.
Proof.
  intros W E O d j v N H. apply (O d j v N). apply obs_shows in H. destruct H as [ks [vs [A B]]]. apply obs_shows. exists ks, vs.
  split; [|exact B]. exact (shows_extends _ _ _ _ W E A).
Qed.
Lemma store_only m c i v m' : wf m -> store m c i v = Ok m' -> only m m' c i.
Proof.
  intros W H. unfold store in H. destruct (get_cell m c i) as [y|] eqn:G; [|discriminate].
  destruct v; try (injection H as <-; eapply changed_only, set_cell_changed, G).
  destruct (nth_error (strs m) r) as [t|]; [|discriminate].
  assert (New : forall m1, Ok (set_cell (fst (new_text m (set_text t))) c i (CStr (snd (new_text m (set_text t))))) = Ok m1 -> only m m1 c i).
  { intros m1 E. injection E as <-. apply (only_extends _ _ _ _ _ W (extends_text m (set_text t))). eapply changed_only, set_cell_changed. exact G. }
  destruct y; try (apply New; exact H). injection H as <-. eapply changed_only, put_text_changed; assumption.
Qed.
Lemma add_only m c k x o : nth_error (conts m) c = Some o -> only m (add_cell m c k x) c (List.length (cells o)).
Proof.
  intros Hc d j v N H. unfold obs in *. rewrite add_cell_strs. destruct (get_cell m d j) as [y|] eqn:G; [|discriminate].
  rewrite (add_cell_old m c k x d j y G). exact H.
Qed.
Lemma only_trans m m1 m2 c i : only m m1 c i -> only m1 m2 c i -> only m m2 c i.
Proof. intros A B d j v N H. apply B, A; assumption. Qed.

(** The owner of a string object, if it has one. *)
Lemma owner m r : (exists c i, get_cell m c i = Some (CStr r)) \/ (forall c i, get_cell m c i <> Some (CStr r)).
Proof.
  assert (D : forall cs, (exists i, nth_error cs i = Some (CStr r)) \/ (forall i, nth_error cs i <> Some (CStr r))).
  { induction cs as [|x cs [[i H]|H]]; [right; intros [|i]; discriminate|left; exists (S i); exact H|].
    assert (X : x = CStr r \/ x <> CStr r) by (destruct x; try (right; discriminate); destruct (Nat.eq_dec r0 r); [left|right]; congruence).
    destruct X as [->|X]; [left; exists O; reflexivity|]. right. intros [|i]; cbn; [congruence|apply H]. }
  unfold get_cell. induction (conts m) as [|k l IH]; [right; intros [|c] i; discriminate|].
  destruct (D (cells k)) as [[i H]|H]; [left; exists O, i; exact H|]. destruct IH as [[c [i Q]]|Q]; [left; exists (S c), i; exact Q|].
  right. intros [|c] i; [apply H|apply Q].
Qed.
Lemma put_text_only m r t : wf m -> exists c i, only m (Mem (conts m) (put (strs m) r t)) c i.
Proof.
  intros W. destruct (owner m r) as [[c [i G]]|N].
  - exists c, i. eapply changed_only, put_text_changed; eassumption.
  - exists O, O. intros d j v _ H. unfold obs in *. change (get_cell _ d j) with (get_cell m d j). destruct (get_cell m d j) as [x|] eqn:G; [|discriminate].
    cbn [option_map strs] in *. injection H as <-. f_equal. destruct x; try reflexivity. cbn [shown]. rewrite put_other; [reflexivity|].
    intros ->. destruct (N d j G).
Qed.

Lemma exec_only m st m' : wf m -> exec m st = Ok m' -> exists c i, only m m' c i.
Proof.
  intros W H. destruct st as [d e]. cbn [exec] in H. apply rbind_ok in H. destruct H as [[m1 v] [H1 H]]. cbn [fst snd] in *.
  destruct (eval_wf _ _ _ _ W H1) as [W1 _]. pose proof (eval_extends _ _ _ _ H1) as X1. destruct d as [x|a i].
  - exists O, x. apply (only_extends _ _ _ _ _ W X1). eapply store_only; eassumption.
  - apply rbind_ok in H. destruct H as [[m2 w] [H2 H]]. apply rbind_ok in H. destruct H as [[m3 u] [H3 H]]. cbn [fst snd] in *.
    destruct (eval_wf _ _ _ _ W1 H2) as [W2 _]. destruct (eval_wf _ _ _ _ W2 H3) as [W3 _].
    pose proof (extends_trans _ _ _ X1 (extends_trans _ _ _ (eval_extends _ _ _ _ H2) (eval_extends _ _ _ _ H3))) as X3.
    assert (Lift : (exists c i, only m3 m' c i) -> exists c i, only m m' c i).
    { intros [c [j O]]. exists c, j. exact (only_extends _ _ _ _ _ W X3 O). }
    apply Lift. apply rbind_ok in H. destruct H as [p [A H]]. destruct p as [c k|c k|r z].
    + exists c, k. eapply store_only; eassumption.
    + destruct (access_new _ _ _ _ _ A) as [ks [cs [E N]]]. rewrite E in H. exists c, (List.length cs).
      eapply only_trans; [exact (add_only m3 c (Some k) CU _ E)|]. cbn [cells] in *. eapply store_only; [|exact H].
      eapply wf_add_undef; eassumption.
    + unfold store_char in H. destruct v; try (injection H as <-; exists O, O; intros d j q _ Q; exact Q).
      destruct (nth_error (strs m3) r); [|discriminate]. destruct (_ && _); [|discriminate]. injection H as <-. apply put_text_only, W3.
Qed.
Lemma exec_var_only m x e m' : wf m -> exec m (SSet (DVar x) e) = Ok m' -> only m m' 0 x.
Proof.
  intros W H. cbn [exec] in H. apply rbind_ok in H. destruct H as [[m1 v] [H1 H]]. cbn [fst snd] in *.
  destruct (eval_wf _ _ _ _ W H1) as [W1 _]. apply (only_extends _ _ _ _ _ W (eval_extends _ _ _ _ H1)). eapply store_only; eassumption.
Qed.
