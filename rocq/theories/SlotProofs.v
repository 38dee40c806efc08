(** Proofs about containers held by containers. *)
From Coq Require Import List ZArith Bool Arith Lia.
From Verif Require Import SlotModel SlotSpec.
Import ListNotations.
Local Arguments Nat.eqb : simpl never.
Local Arguments Nat.modulo : simpl never.
Local Arguments Nat.ltb : simpl never.

(** *** Lists *)
Lemma mem_In x l : mem x l = true <-> In x l.
Proof. unfold mem. rewrite existsb_exists. split; [intros [y [I E]]; apply Nat.eqb_eq in E; congruence | intros; exists x; now rewrite Nat.eqb_refl]. Qed.
Lemma del_In x y l : In y (del x l) <-> In y l /\ y <> x.
Proof. unfold del. rewrite filter_In, negb_true_iff, Nat.eqb_neq. intuition congruence. Qed.
Lemma del_NoDup x l : NoDup l -> NoDup (del x l).
Proof. apply NoDup_filter. Qed.
Lemma del_not_in x l : ~ In x l -> del x l = l.
Proof.
  induction l as [|y l IH]; cbn; [easy|]. intros N. destruct (Nat.eqb_spec x y); [exfalso; apply N; auto|].
  cbn. f_equal. apply IH. tauto.
Qed.
Lemma del_length x l : NoDup l -> In x l -> S (length (del x l)) = length l.
Proof.
  induction l as [|y l IH]; cbn; [easy|]. intros N I. inversion N; subst.
  destruct (Nat.eqb_spec x y) as [->|D]; cbn.
  - change (filter (fun z => negb (y =? z)) l) with (del y l). now rewrite del_not_in.
  - change (filter (fun z => negb (x =? z)) l) with (del x l). destruct I as [->|I]; [congruence|]. now rewrite IH.
Qed.
Lemma isnil_spec {A} (l : list A) : isnil l = true <-> l = [].
Proof. destruct l; cbn; split; easy. Qed.
Lemma index_of_lt x l : In x l -> index_of x l < length l.
Proof. induction l as [|y l IH]; cbn; [easy|]. intros I. destruct (Nat.eqb_spec x y); [lia|]. destruct I; [congruence|]. specialize (IH H). lia. Qed.

Lemma NoDup_app' {A} (l m : list A) : NoDup l -> NoDup m -> (forall x, In x l -> In x m -> False) -> NoDup (l ++ m).
Proof.
  induction l as [|x l IH]; cbn; intros N M F; [auto|]. inversion N; subst. constructor.
  - rewrite in_app_iff. intros [?|?]; [easy|]. eapply F; eauto.
  - apply IH; auto. intros y Y Z. eapply F; eauto.
Qed.
Lemma up_same {A} (f : nat -> A) k v : up f k v k = v.
Proof. unfold up. now rewrite Nat.eqb_refl. Qed.
Lemma up_other {A} (f : nat -> A) k v x : x <> k -> up f k v x = f x.
Proof. unfold up. intros. destruct (Nat.eqb_spec x k); easy. Qed.
Lemma up_cases {A} (f : nat -> A) k v x : (x = k /\ up f k v x = v) \/ (x <> k /\ up f k v x = f x).
Proof. destruct (Nat.eq_dec x k) as [->|D]; [left; split; auto; apply up_same | right; split; auto; now apply up_other]. Qed.

Lemma ring_remove_ok h l s : In s l -> (forall x, In x l -> alive h x = true) -> ring_remove h l s = Fine (del s l).
Proof.
  intros I A. unfold ring_remove. rewrite (proj2 (mem_In s l) I).
  assert (L : length l <> 0) by (destruct l; cbn; [easy|lia]).
  assert (G : forall i, alive h (nth (i mod length l) l 0) = true) by (intros i; apply A, nth_In, Nat.mod_upper_bound, L).
  now rewrite !G.
Qed.
Lemma last_In {A} (l : list A) d : l <> [] -> In (last l d) l.
Proof. induction l as [|x l IH]; [easy|]. intros _. destruct l; [now left|]. right. apply IH. easy. Qed.
Lemma ring_insert_ok h l s : (forall x, In x l -> alive h x = true) -> ring_insert h l s = Fine (l ++ [s]).
Proof.
  intros A. destruct l as [|f r]; [easy|]. unfold ring_insert.
  rewrite (A f (or_introl eq_refl)), (A (last (f :: r) 0)); [easy | apply last_In; easy].
Qed.

(** *** The invariant *)
Definition hold (h : hp) (w : list nat) (p : option nat) (a : nat) : Prop :=
  match p with None => In a w | Some o => exists c, objs h o = Some c /\ In a (map snd (c_cells c)) end.

Definition orefs (l : list val) (o : nat) : nat := length (filter (fun v => match v with VO o' => o' =? o | _ => false end) l).

Record DInv (h : hp) (w ex : list nat) : Prop := {
  d_n : forall o c, objs h o = Some c -> c_n c = length (c_slots c) + orefs (vars h) o;
  d_nd : forall o c, objs h o = Some c -> NoDup (c_slots c);
  d_ls : forall o c s, objs h o = Some c -> In s (c_slots c) -> ~ In s ex /\ exists a, slots h s = Some (Slot (Some o) a);
  d_src : forall s o a, slots h s = Some (Slot (Some o) a) -> ~ In s ex -> exists c, objs h o = Some c /\ In s (c_slots c);
  d_hold : forall p a, hold h w p a -> exists v, cells h a = Some v;
  d_disj : forall p q a, hold h w p a -> hold h w q a -> p = q;
  d_ndw : NoDup w;
  d_ndc : forall o c, objs h o = Some c -> NoDup (map snd (c_cells c));
  d_keys : forall o c, objs h o = Some c -> c_arr c = true -> map fst (c_cells c) = seq 0 (length (c_cells c));
  d_cell : forall a s, cells h a = Some (CS s) -> ~ In s ex -> exists o, slots h s = Some (Slot (Some o) a);
  d_wex : forall a s, In a w -> cells h a = Some (CS s) -> ~ In s ex;
  d_var : forall v, In v (vars h) -> match v with VO o => objs h o <> None | VS _ => False | _ => True end;
  d_znd : NoDup (zero h);
  d_zero : forall o, In o (zero h) <-> exists c, objs h o = Some c /\ c_n c = 0;
  d_cnd : NoDup (cyc h);
  d_cyc : forall o, In o (cyc h) <-> exists c, objs h o = Some c /\ c_slots c <> [];
  d_bo : forall o, objs h o <> None -> o < nobj h;
  d_bc : forall a, cells h a <> None -> a < ncell h;
  d_bs : forall s, slots h s <> None -> s < nslot h;
  d_all : forall a, cells h a <> None -> exists p, hold h w p a
}.
Definition Inv (h : hp) : Prop := DInv h [] [].

(** Every slot but those of [l] is in the element it was made for. *)
Definition Full (h : hp) (l : list nat) : Prop :=
  forall o c s a, objs h o = Some c -> In s (c_slots c) -> slots h s = Some (Slot (Some o) a) -> ~ In s l -> cells h a = Some (CS s).

(** A set of containers none of which will be destroyed. *)
Definition Prot (P : nat -> Prop) (h : hp) (w : list nat) : Prop :=
  forall o, P o -> exists c, objs h o = Some c /\
    (In o (zero h) \/ In (VO o) (vars h) \/
     exists s a p, In s (c_slots c) /\ cells h a = Some (CS s) /\ P p /\ hold h w (Some p) a).

(** [h'] is [h] with some things destroyed. *)
Record sub (h' h : hp) : Prop := {
  s_obj : forall o c', objs h' o = Some c' -> exists c, objs h o = Some c /\ c_arr c' = c_arr c /\ c_cells c' = c_cells c;
  s_cel : forall a v, cells h' a = Some v -> cells h a = Some v;
  s_slo : forall s v, slots h' s = Some v -> slots h s = Some v;
  s_var : vars h' = vars h; s_zer : zero h' = zero h;
  s_no : nobj h' = nobj h; s_nc : ncell h' = ncell h; s_ns : nslot h' = nslot h
}.
Lemma sub_refl h : sub h h.
Proof. constructor; eauto. Qed.
Lemma sub_trans a b c : sub a b -> sub b c -> sub a c.
Proof.
  intros [A1 A2 A3 A4 A5 A6 A7 A8] [B1 B2 B3 B4 B5 B6 B7 B8]. constructor; try congruence; eauto.
  intros o x X. destruct (A1 _ _ X) as [y [Y [Y1 Y2]]]. destruct (B1 _ _ Y) as [z [Z [Z1 Z2]]]. exists z. repeat split; congruence.
Qed.

Lemma orefs_pos l o : In (VO o) l -> 1 <= orefs l o.
Proof.
  intros I. unfold orefs. assert (J : In (VO o) (filter (fun v => match v with VO o' => o' =? o | _ => false end) l)).
  { apply filter_In. rewrite Nat.eqb_refl. auto. }
  destruct (filter _ l); [easy|cbn; lia].
Qed.

Lemma list_alive h w ex o c : DInv h w ex -> objs h o = Some c -> forall x, In x (c_slots c) -> alive h x = true.
Proof. intros D O x X. destruct (d_ls _ _ _ D _ _ _ O X) as [_ [a E]]. unfold alive. now rewrite E. Qed.

(** Freeing an element that is to be released. *)
Lemma free_pending h a w ex P : DInv h (a :: w) ex -> Prot P h (a :: w) ->
  DInv (put_cell h a None) w ex /\ Prot P (put_cell h a None) w.
Proof.
  intros D PR. set (h' := put_cell h a None).
  assert (HO : forall o x, hold h w (Some o) x -> x <> a).
  { intros o x H ->. pose proof (d_disj _ _ _ D (Some o) None a H (or_introl eq_refl)). discriminate. }
  assert (NW : ~ In a w) by (pose proof (d_ndw _ _ _ D) as N; now inversion N).
  assert (UP : forall p x, hold h' w p x -> hold h (a :: w) p x) by (intros [o|] x H; cbn in *; auto).
  assert (NA : forall p x, hold h' w p x -> x <> a) by (intros [o|] x H; [eapply HO; exact H | cbn in H; congruence]).
  assert (CE : forall x v, cells h' x = Some v -> x <> a /\ cells h x = Some v).
  { intros x v. cbn. destruct (up_cases (cells h) a None x) as [[E ->]|[E ->]]; [easy|auto]. }
  split.
  - destruct D. constructor; cbn [h' put_cell set_cells objs slots vars zero cyc nobj ncell nslot] in *; auto.
    + intros p x H. destruct (d_hold0 p x (UP _ _ H)) as [v V]. exists v. cbn. rewrite up_other; eauto.
    + intros p q x H1 H2. apply (d_disj0 p q x); auto.
    + inversion d_ndw0; auto.
    + intros x s X. apply CE in X. apply d_cell0, X.
    + intros x s X Y. apply CE in Y. eapply d_wex0; [right; exact X|apply Y].
    + intros x X. apply d_bc0. cbn in X. unfold up in X. destruct (x =? a); congruence.
    + intros x X. cbn in X. destruct (up_cases (cells h) a None x) as [[E U]|[E U]]; rewrite U in X; [easy|].
      destruct (d_all0 x X) as [p H]. exists p. destruct p as [o|]; [exact H|]. destruct H; [congruence|auto].
  - intros o Po. destruct (PR o Po) as [c [O S]]. exists c. split; [exact O|].
    destruct S as [S|[S|(s & x & p & S1 & S2 & S3 & S4)]]; auto. right; right. exists s, x, p.
    repeat split; auto. cbn. rewrite up_other; auto. eapply HO; exact S4.
Qed.

Section Addr.
Variable addr : nat -> nat.

Lemma In_insert_at o l x : In x (insert_at addr o l) <-> x = o \/ In x l.
Proof. induction l as [|y l IH]; cbn; [intuition|]. destruct (addr o <? addr y); cbn; [intuition|]. rewrite IH. intuition. Qed.
Lemma NoDup_insert_at o l : ~ In o l -> NoDup l -> NoDup (insert_at addr o l).
Proof.
  induction l as [|y l IH]; cbn; intros N D; [constructor; easy|].
  destruct (addr o <? addr y); [constructor; auto|]. inversion D; subst. constructor.
  - rewrite In_insert_at. intuition.
  - apply IH; auto.
Qed.

End Addr.

(** What unlinking a slot does. *)
Lemma unlink_spec h w ex s o a c : DInv h w ex -> slots h s = Some (Slot (Some o) a) -> objs h o = Some c -> In s (c_slots c) ->
  exists h' more, unlink h s = Fine (h', more) /\
    cells h' = cells h /\ slots h' = slots h /\ vars h' = vars h /\ zero h' = zero h /\
    nobj h' = nobj h /\ ncell h' = ncell h /\ nslot h' = nslot h /\
    (forall x, x <> o -> objs h' x = objs h x) /\
    (forall x, In x (cyc h') <-> In x (cyc h) /\ ~ (x = o /\ del s (c_slots c) = [])) /\ NoDup (cyc h') /\
    ((c_n c = 1 /\ objs h' o = None /\ more = map snd (c_cells c) /\ del s (c_slots c) = []) \/
     (1 < c_n c /\ more = [] /\ objs h' o = Some (Cont (c_arr c) (c_cells c) (pred (c_n c)) (del s (c_slots c))))).
Proof.
  intros D SL O I. unfold unlink. rewrite SL. cbn [need s_src]. rewrite O. cbn [need].
  rewrite ring_remove_ok; [|auto|eapply list_alive; eauto]. cbn [obind].
  pose proof (d_n _ _ _ D _ _ O) as N. pose proof (del_length s _ (d_nd _ _ _ D _ _ O) I) as L.
  set (l := del s (c_slots c)) in *. set (h1 := put_obj h o (Some (with_slots c l))).
  assert (E2 : exists h2, (if isnil l then cyc_erase h1 o else Fine h1) = Fine h2 /\
     objs h2 = objs h1 /\ cells h2 = cells h /\ slots h2 = slots h /\ vars h2 = vars h /\ zero h2 = zero h /\
     nobj h2 = nobj h /\ ncell h2 = ncell h /\ nslot h2 = nslot h /\
     (forall x, In x (cyc h2) <-> In x (cyc h) /\ ~ (x = o /\ l = [])) /\ NoDup (cyc h2)).
  { destruct (isnil l) eqn:Z.
    - apply isnil_spec in Z. unfold cyc_erase.
      assert (M : mem o (cyc h1) = true).
      { apply mem_In. apply (proj2 (d_cyc _ _ _ D o)). exists c. split; [auto|]. intros E. rewrite E in I. easy. }
      rewrite M. eexists. split; [reflexivity|]. repeat (split; [reflexivity|]). cbn [set_cyc cyc]. split.
      + intros x. rewrite del_In. intuition.
      + apply del_NoDup, (d_cnd _ _ _ D).
    - exists h1. repeat (split; [reflexivity|]). split.
      + intros x. split; [|tauto]. intros X. split; [exact X|]. intros [_ E]. rewrite E in Z. easy.
      + apply (d_cnd _ _ _ D). }
  destruct E2 as (h2 & -> & EO & EC & ES & EV & EZ & E1 & E3 & E4 & EY & EN). cbn [obind].
  unfold unref_die, unref_count. rewrite EO. unfold h1. cbn [put_obj set_objs objs]. rewrite up_same. cbn [need with_slots c_n].
  destruct (c_n c) as [|n] eqn:EQ; [lia|]. cbn [obind].
  destruct (Nat.eqb_spec n 0) as [->|NZ].
  - assert (l = []) as -> by (destruct l; [auto|cbn in L; lia]).
    unfold die. cbn [put_obj set_objs objs]. rewrite up_same. cbn [need with_n with_slots c_slots isnil c_cells].
    do 2 eexists. split; [reflexivity|]. cbn [put_obj set_objs cells slots vars zero nobj ncell nslot objs cyc].
    repeat (split; [assumption|]). split.
    + intros x X. rewrite !up_other by auto. rewrite EO. unfold h1. cbn. now rewrite up_other.
    + split; [exact EY|]. split; [exact EN|]. left. rewrite up_same. auto.
  - do 2 eexists. split; [reflexivity|]. cbn [put_obj set_objs cells slots vars zero nobj ncell nslot objs cyc].
    repeat (split; [assumption|]). split.
    + intros x X. rewrite !up_other by auto. rewrite EO. unfold h1. cbn. now rewrite up_other.
    + split; [exact EY|]. split; [exact EN|]. right. split; [lia|]. split; [auto|]. rewrite up_same. reflexivity.
Qed.

(** Unlinking keeps the invariant; the slot is then a detached one. *)
Lemma unlink_inv h w ex s o a c P : DInv h w ex -> Prot P h w ->
  slots h s = Some (Slot (Some o) a) -> objs h o = Some c -> In s (c_slots c) ->
  (forall x, cells h x = Some (CS s) -> exists p, P p /\ hold h w (Some p) x) ->
  (forall x t, In t ex -> cells h x = Some (CS t) -> exists p, P p /\ hold h w (Some p) x) ->
  (forall x p q t, cells h x = Some (CS s) -> P p -> hold h w (Some p) x -> P q -> objs h q = Some t -> In s (c_slots t) ->
     In q (zero h) \/ In (VO q) (vars h) \/ exists s' x' p', s' <> s /\ In s' (c_slots t) /\ cells h x' = Some (CS s') /\ P p' /\ hold h w (Some p') x') ->
  exists h' more, unlink h s = Fine (h', more) /\ DInv h' (more ++ w) (s :: ex) /\ Prot P h' (more ++ w) /\ sub h' h /\
    (forall x, x <> o -> objs h' x = objs h x) /\ cells h' = cells h /\ slots h' = slots h /\
    (objs h' o = None -> ~ P o) /\
    (forall c', objs h' o = Some c' -> c_slots c' = del s (c_slots c)) /\
    (forall l, Full h l -> Full h' (filter (fun x => negb (x =? s)) l)).
Proof.
  intros D PR SL O I CS1 CSX SUP.
  destruct (unlink_spec h w ex s o a c D SL O I) as (h' & more & U & EC & ES & EV & EZ & E1 & E2 & E3 & EO & EY & EN & CASES).
  exists h', more. split; [exact U|].
  pose proof (d_n _ _ _ D _ _ O) as N. pose proof (del_length s _ (d_nd _ _ _ D _ _ O) I) as L.
  set (l := del s (c_slots c)) in *.
  assert (SPo : P o -> 1 < c_n c).
  { intros Po.
    assert (S0 : In o (zero h) \/ In (VO o) (vars h) \/ exists s' x' p', s' <> s /\ In s' (c_slots c) /\ cells h x' = Some (CS s') /\ P p' /\ hold h w (Some p') x').
    { destruct (PR o Po) as [c0 [O0 S0]]. rewrite O in O0. injection O0 as <-.
      destruct S0 as [S0|[S0|(s' & x' & p' & T1 & T2 & T3 & T4)]]; auto.
      destruct (Nat.eq_dec s' s) as [->|NE]; [|right; right; exists s', x', p'; auto].
      eapply SUP; eauto. }
    destruct S0 as [Z|[V|(s' & x' & p' & NE & T1 & _)]].
    - apply (d_zero _ _ _ D) in Z. destruct Z as [c0 [O0 Z]]. rewrite O in O0. injection O0 as <-. lia.
    - apply orefs_pos in V. lia.
    - assert (In s' l) by (apply del_In; auto). destruct l; [easy|cbn in L; lia]. }
  assert (NPo : objs h' o = None -> ~ P o).
  { intros E Po. specialize (SPo Po). destruct CASES as [[? _]|[_ [_ E']]]; [lia|congruence]. }
  assert (HOLD : forall p x, hold h' (more ++ w) p x -> exists p0, hold h w p0 x /\ (p = p0 \/ (p = None /\ p0 = Some o /\ objs h' o = None))).
  { intros [q|] x H; cbn in H.
    - destruct H as [c' [O' X]]. exists (Some q). split; [|auto]. destruct (Nat.eq_dec q o) as [->|NE].
      + destruct CASES as [(_ & E & _)|(_ & _ & E)]; rewrite E in O'; [easy|]. injection O' as <-. exists c; auto.
      + rewrite EO in O' by auto. exists c'; auto.
    - apply in_app_iff in H. destruct H as [H|H].
      + destruct CASES as [(_ & E & M & _)|(_ & M & _)]; rewrite M in H; [|easy]. exists (Some o). split; [exists c; auto|auto].
      + exists None. auto. }
  assert (OB : forall x c', objs h' x = Some c' -> exists c0, objs h x = Some c0 /\ c_arr c' = c_arr c0 /\ c_cells c' = c_cells c0).
  { intros x c' X. destruct (Nat.eq_dec x o) as [->|NE].
    - destruct CASES as [(_ & E & _)|(_ & _ & E)]; rewrite E in X; [easy|]. injection X as <-. exists c; auto.
    - rewrite EO in X by auto. exists c'; auto. }
  assert (SLT : forall x c', objs h' x = Some c' -> exists c0, objs h x = Some c0 /\ (forall t, In t (c_slots c') <-> In t (c_slots c0) /\ t <> s)).
  { intros x c' X. destruct (Nat.eq_dec x o) as [->|NE].
    - destruct CASES as [(_ & E & _)|(_ & _ & E)]; rewrite E in X; [easy|]. injection X as <-. exists c. split; auto. intros t. apply del_In.
    - rewrite EO in X by auto. exists c'. split; auto. intros t. split; [|tauto]. intros T. split; auto. intros ->.
      destruct (d_ls _ _ _ D _ _ _ X T) as [_ [b E]]. rewrite SL in E. injection E as E _. congruence. }
  split; [|split; [|split; [|split; [|split; [|split; [|split; [|split]]]]]]]; auto.
  - constructor.
    + intros x c' X. rewrite EV. destruct (Nat.eq_dec x o) as [->|NE].
      * destruct CASES as [(_ & E & _)|(G & _ & E)]; rewrite E in X; [easy|]. injection X as <-. cbn. lia.
      * rewrite EO in X by auto. apply (d_n _ _ _ D); auto.
    + intros x c' X. destruct (Nat.eq_dec x o) as [->|NE].
      * destruct CASES as [(_ & E & _)|(_ & _ & E)]; rewrite E in X; [easy|]. injection X as <-. cbn. apply del_NoDup, (d_nd _ _ _ D _ _ O).
      * rewrite EO in X by auto. apply (d_nd _ _ _ D _ _ X).
    + intros x c' t X T. destruct (SLT _ _ X) as [c0 [X0 E]]. apply E in T. destruct T as [T NE].
      destruct (d_ls _ _ _ D _ _ _ X0 T) as [A B]. rewrite ES. split; [|auto]. intros [F|F]; congruence.
    + intros t x b T NI. rewrite ES in T. assert (t <> s /\ ~ In t ex) as [NE NI'] by (cbn in NI; intuition).
      destruct (d_src _ _ _ D _ _ _ T NI') as [c0 [X0 J]]. destruct (Nat.eq_dec x o) as [->|NX].
      * rewrite O in X0. injection X0 as <-. destruct CASES as [(E1' & _ & _ & E)|(_ & _ & E)].
        -- exfalso. assert (In t (del s (c_slots c))) by (apply del_In; auto). fold l in H. rewrite E in H. easy.
        -- eexists. split; [exact E|]. apply del_In. auto.
      * exists c0. rewrite EO; auto.
    + intros p x H. rewrite EC. destruct (HOLD p x H) as [p0 [H0 _]]. eapply d_hold; eauto.
    + intros p q x H1 H2. destruct (HOLD p x H1) as [p0 [A1 B1]]. destruct (HOLD q x H2) as [q0 [A2 B2]].
      pose proof (d_disj _ _ _ D _ _ _ A1 A2) as E. subst q0.
      destruct B1 as [->|(-> & -> & Z)]; destruct B2 as [->|(-> & EE & Z')]; auto; try congruence.
      * subst p0. destruct H1 as [c' [X _]]. congruence.
      * subst. destruct H2 as [c' [X _]]. congruence.
    + destruct CASES as [(_ & _ & M & _)|(_ & M & _)]; rewrite M; [|apply (d_ndw _ _ _ D)].
      apply NoDup_app'; [apply (d_ndc _ _ _ D _ _ O)|apply (d_ndw _ _ _ D)|].
      intros x X Y. pose proof (d_disj _ _ _ D (Some o) None x (ex_intro _ c (conj O X)) Y). discriminate.
    + intros x c' X. destruct (OB _ _ X) as [c0 [X0 [_ E]]]. rewrite E. apply (d_ndc _ _ _ D _ _ X0).
    + intros x c' X. destruct (OB _ _ X) as [c0 [X0 [E0 E]]]. rewrite E, E0. apply (d_keys _ _ _ D _ _ X0).
    + intros x t X NI. rewrite EC in X. rewrite ES. apply (d_cell _ _ _ D _ _ X). cbn in NI. tauto.
    + intros x t X Y. rewrite EC in Y. assert (J : forall p, P p -> hold h w (Some p) x -> False).
      { intros p Pp Hp. apply in_app_iff in X. destruct X as [X|X].
        - destruct CASES as [(_ & E & M & _)|(_ & M & _)]; rewrite M in X; [|easy].
          assert (Some p = Some o) by (eapply (d_disj _ _ _ D); [exact Hp|exists c; auto]). injection H as ->. now apply NPo.
        - pose proof (d_disj _ _ _ D (Some p) None x Hp X). discriminate. }
      intros [->|F]; [destruct (CS1 _ Y) as [p [Pp Hp]] | destruct (CSX _ _ F Y) as [p [Pp Hp]]]; eapply J; eauto.
    + intros v V. rewrite EV in V. pose proof (d_var _ _ _ D _ V) as W. destruct v as [| |x|]; auto.
      destruct (Nat.eq_dec x o) as [->|NE]; [|now rewrite EO].
      destruct CASES as [(E & _ & _ & E')|(_ & _ & E)]; [|congruence]. apply orefs_pos in V.
      rewrite E' in L. cbn in L. lia.
    + rewrite EZ. apply (d_znd _ _ _ D).
    + intros x. rewrite EZ. rewrite (d_zero _ _ _ D x). split; intros [c0 [X Z]].
      * assert (x <> o) by (intros ->; rewrite O in X; injection X as <-; lia). exists c0. now rewrite EO.
      * destruct (Nat.eq_dec x o) as [->|NE]; [|exists c0; rewrite EO in X; auto].
        destruct CASES as [(_ & E & _)|(G & _ & E)]; rewrite E in X; [easy|]. injection X as <-. cbn in Z. lia.
    + exact EN.
    + intros x. rewrite EY, (d_cyc _ _ _ D x). split.
      * intros [[c0 [X Z]] NE]. destruct (Nat.eq_dec x o) as [->|NX].
        -- destruct CASES as [(_ & _ & _ & E)|(_ & _ & E)]; [exfalso; tauto|]. eexists. split; [exact E|]. cbn. tauto.
        -- exists c0. now rewrite EO.
      * intros [c' [X Z]]. destruct (Nat.eq_dec x o) as [->|NX].
        -- destruct CASES as [(_ & E & _)|(_ & _ & E)]; rewrite E in X; [easy|]. injection X as <-. cbn in Z. split; [|tauto].
           exists c. split; auto. intros F. rewrite F in I. easy.
        -- rewrite EO in X by auto. split; [exists c'; auto|tauto].
    + intros x X. rewrite E1. apply (d_bo _ _ _ D). destruct (objs h' x) as [c'|] eqn:Y; [|easy]. destruct (OB _ _ Y) as [c0 [Z _]]. congruence.
    + intros x X. rewrite E2. rewrite EC in X. apply (d_bc _ _ _ D _ X).
    + intros x X. rewrite E3. rewrite ES in X. apply (d_bs _ _ _ D _ X).
    + intros x X. rewrite EC in X. destruct (d_all _ _ _ D _ X) as [[q|] H].
      * destruct H as [c0 [Q H]]. destruct (objs h' q) as [c'|] eqn:Y.
        -- exists (Some q), c'. split; auto. destruct (OB _ _ Y) as [c1 [Y1 [_ Y2]]]. rewrite Y2. congruence.
        -- assert (q = o) as -> by (destruct (Nat.eq_dec q o); auto; rewrite EO in Y; congruence).
           exists None. cbn. apply in_app_iff. left. destruct CASES as [(_ & _ & M & _)|(_ & _ & E)]; [|congruence]. rewrite M. congruence.
      * exists None. cbn. apply in_app_iff. auto.
  - intros q Pq. destruct (PR q Pq) as [c0 [Q S0]].
    assert (S1 : In q (zero h) \/ In (VO q) (vars h) \/ exists s' x' p', s' <> s /\ In s' (c_slots c0) /\ cells h x' = Some (CS s') /\ P p' /\ hold h w (Some p') x').
    { destruct S0 as [S0|[S0|(s' & x' & p' & T1 & T2 & T3 & T4)]]; auto.
      destruct (Nat.eq_dec s' s) as [->|NE]; [|right; right; exists s', x', p'; auto]. eapply SUP; eauto. }
    assert (exists c', objs h' q = Some c') as [c' Q'].
    { destruct (Nat.eq_dec q o) as [->|NE]; [|exists c0; now rewrite EO].
      specialize (SPo Pq). destruct CASES as [[? _]|[_ [_ E]]]; [lia|eauto]. }
    exists c'. split; [auto|]. rewrite EZ, EV, EC. destruct S1 as [S1|[S1|(s' & x' & p' & NE & T1 & T2 & T3 & T4)]]; auto.
    right; right. exists s', x', p'. destruct (SLT _ _ Q') as [c1 [Q1 E]]. rewrite Q in Q1. injection Q1 as <-.
    split; [apply E; auto|]. split; [auto|]. split; [auto|].
    destruct T4 as [c2 [X2 Y2]]. destruct (objs h' p') as [c3|] eqn:Y3.
    + exists c3. split; auto. destruct (OB _ _ Y3) as [c4 [Z4 [_ Z5]]]. rewrite Z5. congruence.
    + assert (p' = o) as -> by (destruct (Nat.eq_dec p' o); auto; rewrite EO in Y3; congruence). exfalso. now apply NPo.
  - constructor; auto; intros; congruence.
  - intros c' X. destruct CASES as [(_ & E & _)|(_ & _ & E)]; rewrite E in X; [easy|]. now injection X as <-.
  - intros fl F x c' t b X T1 T2 NI. rewrite EC. rewrite ES in T2. destruct (SLT _ _ X) as [c0 [X0 E]]. apply E in T1. destruct T1 as [T1 NE].
    eapply F; eauto. intros J. apply NI. apply filter_In. split; auto. apply negb_true_iff, Nat.eqb_neq. auto.
Qed.

Lemma kill_slot h w ex s P : DInv h w (s :: ex) -> ~ In s ex -> (forall x, cells h x <> Some (CS s)) -> Prot P h w ->
  DInv (put_slot h s None) w ex /\ Prot P (put_slot h s None) w /\ sub (put_slot h s None) h /\
  (forall l, Full h l -> Full (put_slot h s None) l).
Proof.
  intros D NX NC PR. set (h' := put_slot h s None).
  assert (SS : forall t v, slots h' t = Some v -> t <> s /\ slots h t = Some v).
  { intros t v. cbn. destruct (up_cases (slots h) s None t) as [[E ->]|[E ->]]; [easy|auto]. }
  split; [|split; [|split]].
  - destruct D. constructor; try assumption.
    + intros o c t O T. destruct (d_ls0 _ _ _ O T) as [A B]. cbn in A. split; [tauto|]. cbn. rewrite up_other; [auto|intuition].
    + intros t o a T NI. apply SS in T. eapply d_src0; [apply T|]. cbn. intuition.
    + intros a t A NI. assert (t <> s) by (intros ->; now apply (NC a)). cbn. rewrite up_other by auto. apply d_cell0; auto. cbn. intuition.
    + intros a t A B. pose proof (d_wex0 _ _ A B) as Q. cbn in Q. tauto.
    + intros t T. cbn in *. apply d_bs0. intros E. apply T. unfold up. now destruct (t =? s).
  - exact PR.
  - constructor; eauto. intros t v T. apply SS in T. tauto.
  - intros l F o c t a O T1 T2 NI. apply SS in T2. eapply F; eauto. tauto.
Qed.

(** *** Destruction ends *)
Definition lc (h : hp) : nat := length (filter (fun a => match cells h a with Some _ => true | None => false end) (seq 0 (ncell h))).
Lemma filter_lt {A} (f g : A -> bool) l a : (forall x, g x = true -> f x = true) -> In a l -> f a = true -> g a = false ->
  length (filter g l) < length (filter f l).
Proof.
  intros FG. assert (LE : forall l, length (filter g l) <= length (filter f l)).
  { clear l. induction l as [|x l IH]; cbn; [lia|]. destruct (g x) eqn:G; [rewrite (FG _ G); cbn; lia|]. destruct (f x); cbn; lia. }
  induction l as [|x l IH]; [easy|]. intros [->|I] Fa Ga; cbn.
  - rewrite Fa, Ga. cbn. specialize (LE l). lia.
  - specialize (IH I Fa Ga). destruct (g x) eqn:G; [rewrite (FG _ G); cbn; lia|]. destruct (f x); cbn; lia.
Qed.
Lemma lc_free h a v : a < ncell h -> cells h a = Some v -> lc (put_cell h a None) < lc h.
Proof.
  intros L C. unfold lc. cbn. apply filter_lt with a.
  - intros x. unfold up. destruct (x =? a); [easy|auto].
  - apply in_seq. lia.
  - now rewrite C.
  - now rewrite up_same.
Qed.
Lemma lc_le h : lc h <= ncell h.
Proof.
  unfold lc. rewrite <- (seq_length (ncell h) 0) at 2. generalize (seq 0 (ncell h)). intros l.
  induction l as [|x l IH]; cbn; [lia|]. destruct (cells h x); cbn; lia.
Qed.

Definition kept (P : nat -> Prop) (ex : list nat) (h : hp) (w : list nat) : Prop :=
  forall x t, In t ex -> cells h x = Some (CS t) -> exists p, P p /\ hold h w (Some p) x.

Lemma drain_ok P : forall f h w ex, DInv h w ex -> Prot P h w -> kept P ex h w -> lc h < f ->
  exists h', drain f h w = Fine h' /\ DInv h' [] ex /\ Prot P h' [] /\ sub h' h /\ (Full h [] -> Full h' []).
Proof.
  induction f as [|f IH]; intros h w ex D PR K L; [lia|]. destruct w as [|a w]; cbn [drain].
  - exists h. split; [auto|]. split; [auto|]. split; [auto|]. split; [apply sub_refl|auto].
  - destruct (d_hold _ _ _ D None a (or_introl eq_refl)) as [v V]. rewrite V. cbn [need].
    destruct (free_pending h a w ex P D PR) as [D1 PR1].
    assert (NA : forall p x, hold h (a :: w) (Some p) x -> x <> a).
    { intros p x H ->. pose proof (d_disj _ _ _ D (Some p) None a H (or_introl eq_refl)). discriminate. }
    assert (K1 : kept P ex (put_cell h a None) w).
    { intros x t T X. cbn in X. destruct (up_cases (cells h) a None x) as [[E U]|[E U]]; rewrite U in X; [easy|].
      destruct (K x t T X) as [p [Pp H]]. exists p. split; auto. }
    assert (S1 : sub (put_cell h a None) h).
    { constructor; eauto. intros x u. cbn. destruct (up_cases (cells h) a None x) as [[E ->]|[E ->]]; [easy|auto]. }
    assert (L1 : lc (put_cell h a None) < f).
    { pose proof (lc_free h a v) as Q. assert (a < ncell h) by (apply (d_bc _ _ _ D); congruence). specialize (Q H V). lia. }
    assert (PLAIN : (forall s, v <> CS s) -> exists h', drain f (put_cell h a None) w = Fine h' /\ DInv h' [] ex /\ Prot P h' [] /\ sub h' h /\ (Full h [] -> Full h' [])).
    { intros NS. destruct (IH _ _ _ D1 PR1 K1 L1) as (h' & E & D' & PR' & S' & F'). exists h'. split; [auto|]. split; [auto|]. split; [auto|].
      split; [eapply sub_trans; eauto|]. intros F. apply F'. intros o c s x O I S NI. cbn. rewrite up_other; [eapply F; eauto|].
      intros ->. pose proof (F _ _ _ _ O I S NI) as Z. rewrite V in Z. injection Z as ->. now apply (NS s). }
    destruct v as [|z|s]; [apply PLAIN; easy|apply PLAIN; easy|]. clear PLAIN.
    pose proof (d_wex _ _ _ D a s (or_introl eq_refl) V) as NX.
    destruct (d_cell _ _ _ D a s V NX) as [o SL]. destruct (d_src _ _ _ D _ _ _ SL NX) as [c [O I]].
    assert (NC : forall x, cells (put_cell h a None) x <> Some (CS s)).
    { intros x X. cbn in X. destruct (up_cases (cells h) a None x) as [[E U]|[E U]]; rewrite U in X; [easy|].
      destruct (d_cell _ _ _ D x s X NX) as [o' SL']. rewrite SL in SL'. injection SL' as _ E'. auto. }
    destruct (unlink_inv (put_cell h a None) w ex s o a c P D1 PR1 SL O I) as (h2 & more & U & D2 & PR2 & S2 & EO & EC & ES & NP & SLO & F2).
    + intros x X. now apply NC in X.
    + exact K1.
    + intros x p q t X. now apply NC in X.
    + rewrite U. cbn [obind].
      assert (NC2 : forall x, cells h2 x <> Some (CS s)) by (intros x; rewrite EC; apply NC).
      destruct (kill_slot h2 (more ++ w) ex s P D2 NX NC2 PR2) as (D3 & PR3 & S3 & F3).
      destruct (IH (put_slot h2 s None) (more ++ w) ex D3 PR3) as (h' & E & D' & PR' & S' & F').
      * intros x t T X. cbn in X. rewrite EC in X. destruct (K1 x t T X) as [p [Pp Hp]]. exists p. split; auto.
        destruct Hp as [cp [Op Ip]]. destruct (PR3 p Pp) as [c3 [O3 _]]. exists c3. split; auto.
        destruct (s_obj _ _ S2 p c3 O3) as [c4 [O4 [_ E4]]]. rewrite E4. cbn in O4, Op. congruence.
      * unfold lc in *. cbn in *. rewrite EC. rewrite (s_nc _ _ S2). exact L1.
      * exists h'. split; [auto|]. split; [auto|]. split; [auto|]. split.
        -- eapply sub_trans; [exact S'|]. eapply sub_trans; [exact S3|]. eapply sub_trans; [exact S2|exact S1].
        -- intros F. apply F'. apply F3. 
           assert (FF : Full (put_cell h a None) [s]).
           { intros o' c' t x O' I' T' NI. cbn. pose proof (F _ _ _ _ O' I' T' (fun z => z)) as Z. rewrite up_other; [auto|].
             intros ->. rewrite V in Z. injection Z as ->. apply NI. now left. }
           apply F2 in FF. cbn in FF. rewrite Nat.eqb_refl in FF. exact FF.
Qed.

Lemma drain_all_ok P h w ex : DInv h w ex -> Prot P h w -> kept P ex h w ->
  exists h', drain_all h w = Fine h' /\ DInv h' [] ex /\ Prot P h' [] /\ sub h' h /\ (Full h [] -> Full h' []).
Proof. intros. apply (drain_ok P); auto. pose proof (lc_le h). lia. Qed.

(** Deleting a slot that no element holds any more. *)
Lemma delete_slot_ok P h s o a : DInv h [] [] -> Prot P h [] -> slots h s = Some (Slot (Some o) a) -> (forall x, cells h x <> Some (CS s)) ->
  exists h', delete_slot h s = Fine h' /\ DInv h' [] [] /\ Prot P h' [] /\ sub h' h /\ (Full h [s] -> Full h' []).
Proof.
  intros D PR SL NC. destruct (d_src _ _ _ D _ _ _ SL (fun z => z)) as [c [O I]].
  destruct (unlink_inv h [] [] s o a c P D PR SL O I) as (h1 & more & U & D1 & PR1 & S1 & EO & EC & ES & NP & SLO & F1).
  - intros x X. now apply NC in X.
  - easy.
  - intros x p q t X. now apply NC in X.
  - unfold delete_slot. rewrite U. cbn [obind]. rewrite app_nil_r in *.
    destruct (drain_all_ok P h1 more [s] D1 PR1) as (h2 & E & D2 & PR2 & S2 & F2).
    + intros x t [<-|[]] X. rewrite EC in X. now apply NC in X.
    + rewrite E. cbn [obind].
      assert (NC2 : forall x, cells h2 x <> Some (CS s)) by (intros x X; apply (s_cel _ _ S2) in X; rewrite EC in X; now apply NC in X).
      destruct (kill_slot h2 [] [] s P D2 (fun z => z) NC2 PR2) as (D3 & PR3 & S3 & F3).
      eexists. split; [reflexivity|]. split; [auto|]. split; [auto|]. split.
      * eapply sub_trans; [exact S3|]. eapply sub_trans; eauto.
      * intros F. apply F3, F2. apply F1 in F. cbn in F. rewrite Nat.eqb_refl in F. exact F.
Qed.

