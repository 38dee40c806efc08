(** Claims on files that import each other: C177 (every file once) and C178 (which file). *)
From Coq Require Import List ZArith Bool Lia Permutation.
From Verif Require Import ImportModel.
Import ListNotations.
Local Open Scope Z_scope.

(** The statements and the imports of a text. *)
Definition stmts (l : list item) : list Z := flat_map (fun i => match i with Stmt x => [x] | _ => [] end) l.
Definition imports (l : list item) : list name := flat_map (fun i => match i with Import n => [n] | _ => [] end) l.

Section Claims.
Variable dir : Type.
Variable cd : dir -> name -> dir.
Variable regular : dir -> name -> bool.
Variable read : dir -> name -> option (list item).
Notation state := (state dir).
Notation outcome := (outcome dir).
Notation compile_file := (compile_file dir cd regular read).
Notation compile_items := (compile_items dir regular).

Definition ends (o : outcome) (s : state) : Prop := o = Done s \/ o = Error s.

Lemma file_S f s n : compile_file (S f) s n =
  if in_dec name_dec n (parsed s) then Done s
  else match read (cwd s) n with
       | None => Error (mark n s)
       | Some l => restore dir (cwd s) (compile_items (compile_file f) l (go_to (cd (cwd s) n) (mark n s)))
       end.
Proof. cbn [ImportModel.compile_file]. unfold already_parsed. destruct (in_dec name_dec n (parsed s)); reflexivity. Qed.
Lemma restore_ends d o s : ends (restore dir d o) s -> exists s0, ends o s0 /\ s = go_to d s0.
Proof. unfold ends. destruct o; cbn [restore]; intros [H|H]; inversion H; subst; eauto. Qed.

Lemma grows f : forall s n s', ends (compile_file f s n) s' ->
  (exists new, parsed s' = parsed s ++ new) /\ (NoDup (parsed s) -> NoDup (parsed s')) /\ In n (parsed s') /\ cwd s' = cwd s.
Proof.
  induction f as [|f IH]; intros s n s' H; [destruct H; discriminate|]. rewrite file_S in H. destruct (in_dec name_dec n (parsed s)) as [I|I].
  - destruct H as [H|H]; inversion H; subst. split; [exists []; rewrite app_nil_r; reflexivity|]. auto.
  - assert (ND : NoDup (parsed s) -> NoDup (parsed s ++ [n])).
    { intros D. apply (Permutation_NoDup (Permutation_cons_append (parsed s) n)). constructor; assumption. }
    destruct (read (cwd s) n) as [l|].
    2:{ destruct H as [H|H]; inversion H; subst. cbn. split; [eauto|]. split; [exact ND|]. split; [apply in_or_app; cbn; auto | reflexivity]. }
    apply restore_ends in H. destruct H as (s0 & H & ->). cbn [go_to parsed cwd].
    assert (G : forall l t t', ends (compile_items (compile_file f) l t) t' -> (exists new, parsed t' = parsed t ++ new) /\ (NoDup (parsed t) -> NoDup (parsed t'))).
    { clear - IH. induction l as [|i l IL]; intros t t' H; [cbn in H; destruct H as [H|H]; inversion H; subst; split; [exists []; rewrite app_nil_r; reflexivity | auto]|]. destruct i as [x|m|]; cbn [ImportModel.compile_items] in H.
      - apply IL in H. exact H.
      - destruct (regular (cwd t) m); [|destruct H as [H|H]; inversion H; subst; split; [exists []; rewrite app_nil_r; reflexivity | auto]].
        destruct (compile_file f t m) as [u|u|] eqn:E.
        + destruct (IH t m u (or_introl E)) as ((n1 & E1) & D1 & _). destruct (IL u t' H) as ((n2 & E2) & D2). split; [exists (n1 ++ n2); rewrite E2, E1, app_assoc; reflexivity | auto].
        + destruct H as [H|H]; inversion H; subst. destruct (IH t m t' (or_intror E)) as (A & B & _). auto.
        + destruct H; discriminate.
      - destruct H as [H|H]; inversion H; subst; split; [exists []; rewrite app_nil_r; reflexivity | auto]. }
    destruct (G _ _ _ H) as ((new & E) & D). cbn [go_to mark parsed] in E, D. split; [exists ([n] ++ new); rewrite E, app_assoc; reflexivity|]. split; [auto|].
    split; [rewrite E; apply in_or_app; left; apply in_or_app; cbn; auto | reflexivity].
Qed.

(** ** C177: every file once *)

(** However the compilation ends, the directory is the one it was. *)
Theorem C177_directory : forall f s n s', ends (compile_file f s n) s' -> cwd s' = cwd s.
Proof. intros f s n s' H. apply (grows f s n s' H). Qed.
(** No name is compiled twice. *)
Theorem C177_no_name_twice : forall f s n s', NoDup (parsed s) -> ends (compile_file f s n) s' -> NoDup (parsed s').
Proof. intros f s n s' D H. apply (grows f s n s' H). exact D. Qed.

(** Imports in circles come to an end: if the names that can be imported are among [u], as many
    steps as there are names suffice. *)
Theorem C177_ends : forall u s n, In n u -> (forall d m l k, In m u -> read d m = Some l -> In k (imports l) -> In k u) ->
  exists s', ends (compile_file (S (List.length u)) s n) s'.
Proof.
  intros u s n I C.
  set (left := fun p : list name => List.length (filter (fun m => if in_dec name_dec m p then false else true) u)).
  assert (LM : forall p q, incl p q -> (left q <= left p)%nat).
  { intros p q PQ. unfold left. clear - PQ. induction u as [|m v IV]; [cbn; lia|]. cbn [filter]. destruct (in_dec name_dec m p), (in_dec name_dec m q); cbn [List.length]; try lia. exfalso. auto. }
  assert (LS : forall p m, In m u -> ~ In m p -> (left (p ++ [m]) < left p)%nat).
  { intros p m J N. unfold left. clear - J N. induction u as [|k v IV]; [destruct J|]. cbn [filter].
    assert (M : (List.length (filter (fun m0 => if in_dec name_dec m0 (p ++ [m]) then false else true) v) <= List.length (filter (fun m0 => if in_dec name_dec m0 p then false else true) v))%nat).
    { clear. induction v as [|a v IV]; [cbn; lia|]. cbn [filter]. destruct (in_dec name_dec a p) as [A|A], (in_dec name_dec a (p ++ [m])) as [B|B]; cbn [List.length]; try lia. exfalso. apply B, in_or_app. auto. }
    destruct J as [->|J].
    - destruct (in_dec name_dec m p); [contradiction|]. destruct (in_dec name_dec m (p ++ [m])) as [|B]; [cbn [List.length]; lia | exfalso; apply B, in_or_app; cbn; auto].
    - specialize (IV J). destruct (in_dec name_dec k p) as [A|A], (in_dec name_dec k (p ++ [m])) as [B|B]; cbn [List.length]; try lia. exfalso. apply B, in_or_app. auto. }
  assert (G : forall f s n, In n u -> (left (parsed s) < f)%nat -> exists s', ends (compile_file f s n) s').
  { clear I s n. induction f as [|f IH]; intros s n I L; [lia|]. rewrite file_S. destruct (in_dec name_dec n (parsed s)) as [K|K]; [exists s; left; reflexivity|].
    destruct (read (cwd s) n) as [l|] eqn:R; [|eexists; right; reflexivity].
    assert (GI : forall l t, (forall k, In k (imports l) -> In k u) -> (left (parsed t) < f)%nat -> exists t', ends (compile_items (compile_file f) l t) t').
    { clear R l. induction l as [|i l IL]; intros t Cl Lt; [exists t; left; reflexivity|]. destruct i as [x|m|]; cbn [ImportModel.compile_items].
      - apply IL; [intros k J; apply Cl, J | exact Lt].
      - destruct (regular (cwd t) m); [|exists t; right; reflexivity]. destruct (IH t m) as (t1 & E); [apply Cl; cbn; auto | exact Lt|].
        destruct (grows f t m t1 E) as ((new & P) & _). destruct E as [E|E]; rewrite E; [|exists t1; right; reflexivity].
        apply IL; [intros k J; apply Cl; cbn; auto|]. apply (Nat.le_lt_trans _ (left (parsed t))); [apply LM; rewrite P; intros a J; apply in_or_app; auto | exact Lt].
      - exists t. right. reflexivity. }
    destruct (GI l (go_to (cd (cwd s) n) (mark n s))) as (t & E); [intros k J; apply (C (cwd s) n l k I R J) | cbn [go_to mark parsed]; specialize (LS (parsed s) n I K); lia|].
    destruct E as [-> | ->]; cbn [restore]; eexists; [left | right]; reflexivity. }
  apply G; [exact I|]. unfold left. clear. induction u as [|m v IV]; [cbn; lia|]. cbn [filter]. destruct (in_dec name_dec m (parsed s)); cbn [List.length] in *; lia.
Qed.

(** If all of them can be read, have no errors and import only files that exist, it ends without
    error. *)
Theorem C177_succeeds : forall u s n, In n u ->
  (forall d m, In m u -> exists l, read d m = Some l /\ ~ In Bad l /\ forall k, In k (imports l) -> In k u /\ forall d', regular d' k = true) ->
  exists s', compile_file (S (List.length u)) s n = Done s'.
Proof.
  intros u s n I C. destruct (C177_ends u s n I) as (s' & [E|E]); [|eauto|].
  { intros d m l k M R K. destruct (C d m M) as (l' & R' & _ & Cl). rewrite R' in R. inversion R; subst l'. apply (Cl k K). }
  exfalso. revert I E. generalize (S (List.length u)) as f. intros f. revert s n s'. induction f as [|f IH]; intros s n s' I E; [discriminate|]. rewrite file_S in E.
  destruct (in_dec name_dec n (parsed s)); [discriminate|]. destruct (C (cwd s) n I) as (l & R & B & Cl). rewrite R in E.
  assert (G : forall l t t', ~ In Bad l -> (forall k, In k (imports l) -> In k u /\ forall d', regular d' k = true) -> compile_items (compile_file f) l t <> Error t').
  { clear - IH. induction l as [|i l IL]; intros t t' B Cl H; [discriminate|]. destruct i as [x|k|]; cbn [ImportModel.compile_items] in H.
    - apply (IL _ t') in H; [exact H | intros Z; apply B; cbn; auto | exact Cl].
    - destruct (Cl k) as (K & Rg); [cbn; auto|]. rewrite Rg in H. destruct (compile_file f t k) as [v|v|] eqn:E; [|apply (IH t k v K E) | discriminate].
      apply (IL _ t') in H; [exact H | intros Z; apply B; cbn; auto | intros q Q; apply Cl; cbn; auto].
    - apply B. cbn. auto. }
  destruct (compile_items (compile_file f) l (go_to (cd (cwd s) n) (mark n s))) as [t|t|] eqn:F; cbn [restore] in E; try discriminate. apply (G l _ t B Cl F).
Qed.

(** If names say which file is meant (in all directories that are entered, [here], a name means
    what it means in d: all files are in one directory, or the names are absolute), a file that
    compiles without error puts the statements of every file that it needs into the code
    exactly once, and no others. *)
Variable d : dir.
Variable here : dir -> Prop.
Definition names_say : Prop := forall d' n, here d' -> here (cd d' n) /\ read d' n = read d n.
Definition text (n : name) : list item := match read d n with Some l => l | None => [] end.
Inductive needs : name -> name -> Prop :=
| n_self : forall n, needs n n
| n_import : forall n m k, In m (imports (text n)) -> needs m k -> needs n k.

Lemma done_flat : names_say -> forall f s n s', here (cwd s) -> compile_file f s n = Done s' ->
  exists new, parsed s' = parsed s ++ new /\ Permutation (code s') (code s ++ flat_map (fun m => stmts (text m)) new) /\
    (forall m, In m new -> needs n m) /\ (forall m k, In m new -> In k (imports (text m)) -> In k (parsed s')) /\ In n (parsed s') /\ cwd s' = cwd s.
Proof.
  intros F. induction f as [|f IH]; intros s n s' W H; [discriminate|]. rewrite file_S in H. destruct (in_dec name_dec n (parsed s)) as [I|I].
  { inversion H; subst s'. exists []. cbn. rewrite !app_nil_r. split; [reflexivity|]. split; [apply Permutation_refl|]. split; [intros m []|]. split; [intros m k []|]. auto. }
  destruct (F (cwd s) n W) as (W' & RE). rewrite RE in H. destruct (read d n) as [l|] eqn:R; [|discriminate].
  assert (G : forall l t t', here (cwd t) -> compile_items (compile_file f) l t = Done t' ->
    exists new, parsed t' = parsed t ++ new /\ Permutation (code t') (code t ++ stmts l ++ flat_map (fun m => stmts (text m)) new) /\
      (forall m, In m new -> exists k, In k (imports l) /\ needs k m) /\ (forall m k, In m new -> In k (imports (text m)) -> In k (parsed t')) /\ (forall k, In k (imports l) -> In k (parsed t'))).
  { clear - IH F. induction l as [|i l IL]; intros t t' W H.
    - inversion H; subst t'. exists []. cbn. rewrite !app_nil_r. split; [reflexivity|]. split; [apply Permutation_refl|]. split; [intros m []|]. split; [intros m k [] | intros k []].
    - destruct i as [x|m|]; cbn [ImportModel.compile_items] in H; [| |discriminate].
      + destruct (IL (emit x t) t' W H) as (new & E & P & N & C & J). exists new. cbn [emit parsed code] in *. split; [exact E|]. split; [|split; [exact N|]; split; assumption].
        rewrite <- app_assoc in P. exact P.
      + destruct (regular (cwd t) m); [|discriminate]. destruct (compile_file f t m) as [u|u|] eqn:E; try discriminate. destruct (IH t m u W E) as (n1 & E1 & P1 & N1 & C1 & J1 & W1).
        destruct (IL u t' (eq_ind_r here W W1) H) as (n2 & E2 & P2 & N2 & C2 & J2). exists (n1 ++ n2). rewrite E2, E1. split; [apply eq_sym, app_assoc|]. split.
        * cbn [stmts flat_map app]. eapply Permutation_trans; [exact P2|]. eapply Permutation_trans; [apply Permutation_app_tail, P1|]. rewrite <- app_assoc. apply Permutation_app_head.
          rewrite flat_map_app, !app_assoc. apply Permutation_app_tail, Permutation_app_comm.
        * rewrite E2, E1 in *. split; [|split].
          -- intros k K. apply in_app_or in K. destruct K as [K|K]; [exists m; split; [cbn; auto | apply N1, K]|]. destruct (N2 k K) as (q & Q & Q'). exists q. split; [cbn; auto | exact Q'].
          -- intros k q K Q. apply in_app_or in K. destruct K as [K|K]; [apply in_or_app; left; apply (C1 k q K Q) | apply (C2 k q K Q)].
          -- intros k K. cbn [imports flat_map app] in K. destruct K as [<-|K]; [apply in_or_app; left; exact J1 | apply J2, K]. }
  destruct (compile_items (compile_file f) l (go_to (cd (cwd s) n) (mark n s))) as [t|t|] eqn:E; cbn [restore] in H; inversion H; subst s'.
  destruct (G l (go_to (cd (cwd s) n) (mark n s)) t W' E) as (new & E1 & P & N & C & J). cbn [go_to mark parsed code cwd] in *.
  assert (T : text n = l) by (unfold text; rewrite R; reflexivity).
  exists ([n] ++ new). split; [rewrite E1, app_assoc; reflexivity|]. split; [cbn [flat_map app]; rewrite T; exact P|]. split; [|split; [|split; [rewrite E1; apply in_or_app; left; apply in_or_app; cbn; auto | reflexivity]]].
  - intros m [<-|M]; [constructor|]. destruct (N m M) as (k & K & K'). apply (n_import n k m); [rewrite T; exact K | exact K'].
  - intros m k [<-|M] K; [rewrite T in K; apply J, K | apply (C m k M K)].
Qed.
Theorem C177_each_once_partial : names_say -> here d -> forall f n s', compile_file f (mkS [] d []) n = Done s' ->
  NoDup (parsed s') /\ (forall m, In m (parsed s') <-> needs n m) /\ Permutation (code s') (flat_map (fun m => stmts (text m)) (parsed s')).
Proof.
  intros F D f n s' H. destruct (done_flat F f (mkS [] d []) n s' D H) as (new & E & P & N & C & J & _). cbn [parsed code app] in *. subst new.
  split; [apply (C177_no_name_twice f (mkS [] d []) n s'); [constructor | left; exact H]|]. split; [|exact P].
  intros m. split; [apply N|]. intros R. revert J. clear - R C. induction R as [n|n m k I R IR]; intros J; [exact J|]. apply IR, (C n m J I).
Qed.

(** The order of the code: an import stands for the text of the file, the first time, and for
    nothing later. *)
Inductive stands_for : list name -> list item -> list name -> list Z -> Prop :=
| f_end : forall seen, stands_for seen [] seen []
| f_stmt : forall seen x l seen' c, stands_for seen l seen' c -> stands_for seen (Stmt x :: l) seen' (x :: c)
| f_later : forall seen m l seen' c, In m seen -> stands_for seen l seen' c -> stands_for seen (Import m :: l) seen' c
| f_first : forall seen m l seen1 c1 seen2 c2, ~ In m seen -> stands_for (seen ++ [m]) (text m) seen1 c1 -> stands_for seen1 l seen2 c2 ->
    stands_for seen (Import m :: l) seen2 (c1 ++ c2).
Theorem C177_order_partial : names_say -> forall f s n s', here (cwd s) -> compile_file f s n = Done s' ->
  exists c, code s' = code s ++ c /\ stands_for (parsed s) [Import n] (parsed s') c.
Proof.
  intros F. induction f as [|f IH]; intros s n s' W H; [discriminate|]. rewrite file_S in H. destruct (in_dec name_dec n (parsed s)) as [I|I].
  { inversion H; subst s'. exists []. rewrite app_nil_r. split; [reflexivity|]. apply f_later; [exact I | constructor]. }
  destruct (F (cwd s) n W) as (W' & RE). rewrite RE in H. destruct (read d n) as [l|] eqn:R; [|discriminate].
  assert (A : forall seen l seen1 c1, stands_for seen l seen1 c1 -> forall l' seen2 c2, stands_for seen1 l' seen2 c2 -> stands_for seen (l ++ l') seen2 (c1 ++ c2)).
  { clear. intros seen l seen1 c1 V. induction V; intros l' s2' c2' V'; cbn [app]; [exact V' | constructor; auto | apply f_later; auto | rewrite <- app_assoc; eapply f_first; eauto]. }
  assert (G : forall l t t', here (cwd t) -> compile_items (compile_file f) l t = Done t' -> exists c, code t' = code t ++ c /\ stands_for (parsed t) l (parsed t') c).
  { clear - IH F A. induction l as [|i l IL]; intros t t' Wt H'; [inversion H'; subst t'; exists []; rewrite app_nil_r; split; [reflexivity | constructor]|].
    destruct i as [x|m|]; cbn [ImportModel.compile_items] in H'; [| |discriminate].
    - destruct (IL (emit x t) t' Wt H') as (c & E & V). exists (x :: c). cbn [emit code parsed] in E, V. rewrite <- app_assoc in E. split; [exact E | constructor; exact V].
    - destruct (regular (cwd t) m); [|discriminate]. destruct (compile_file f t m) as [u|u|] eqn:E; try discriminate. destruct (IH t m u Wt E) as (c1 & E1 & V1).
      destruct (grows f t m u (or_introl E)) as (_ & _ & _ & Wu). destruct (IL u t' (eq_ind_r here Wt Wu) H') as (c2 & E2 & V2). exists (c1 ++ c2). split; [rewrite E2, E1, app_assoc; reflexivity|].
      apply (A (parsed t) [Import m] (parsed u) c1 V1 l _ _ V2). }
  destruct (compile_items (compile_file f) l (go_to (cd (cwd s) n) (mark n s))) as [t|t|] eqn:E; cbn [restore] in H; inversion H; subst s'.
  destruct (G l (go_to (cd (cwd s) n) (mark n s)) t W' E) as (c & E1 & V). cbn [go_to mark parsed code cwd] in *. exists c. split; [exact E1|].
  rewrite <- (app_nil_r c). apply (f_first (parsed s) n [] (parsed t) c (parsed t) [] I); [|constructor]. unfold text. rewrite R. exact V.
Qed.

(** Without error means that every file that was compiled now could be read and has no error, and
    that what it imports exists in its directory. *)
Definition sound_file (p : list name) (m : name) : Prop := exists d l, read d m = Some l /\ ~ In Bad l /\ forall k, In k (imports l) -> In k p /\ regular (cd d m) k = true.
Theorem C177_no_errors : forall f s n s', compile_file f s n = Done s' -> forall m, In m (parsed s') -> In m (parsed s) \/ sound_file (parsed s') m.
Proof.
  induction f as [|f IH]; intros s n s' H m M; [discriminate|]. rewrite file_S in H. destruct (in_dec name_dec n (parsed s)) as [I|I]; [inversion H; subst; auto|].
  destruct (read (cwd s) n) as [l|] eqn:R; [|discriminate]. set (e := cd (cwd s) n) in *.
  assert (W : forall p q x, incl p q -> sound_file p x -> sound_file q x).
  { intros p q x PQ (d0 & l0 & A & B & C). exists d0, l0. split; [exact A|]. split; [exact B|]. intros k K. destruct (C k K). auto. }
  assert (G : forall l t t', cwd t = e -> compile_items (compile_file f) l t = Done t' ->
    incl (parsed t) (parsed t') /\ ~ In Bad l /\ (forall k, In k (imports l) -> In k (parsed t') /\ regular e k = true) /\ forall x, In x (parsed t') -> In x (parsed t) \/ sound_file (parsed t') x).
  { clear - IH W. induction l as [|i l IL]; intros t t' Wt H; [inversion H; subst; split; [apply incl_refl|]; split; [auto|]; split; [intros k [] | auto]|].
    destruct i as [x|k|]; cbn [ImportModel.compile_items] in H; [| |discriminate].
    - destruct (IL (emit x t) t' Wt H) as (A & B & C & D). split; [exact A|]. split; [intros [E|E]; [discriminate | auto]|]. split; [exact C | exact D].
    - destruct (regular (cwd t) k) eqn:Rg; [|discriminate]. destruct (compile_file f t k) as [u|u|] eqn:E; try discriminate.
      destruct (grows f t k u (or_introl E)) as ((new & P) & _ & K & Wu). destruct (IL u t' (eq_trans Wu Wt) H) as (A & B & C & D).
      assert (TU : incl (parsed t) (parsed u)) by (rewrite P; intros y Y; apply in_or_app; auto).
      split; [eapply incl_tran; eassumption|]. split; [intros [Z|Z]; [discriminate | auto]|]. split.
      + intros q [<-|Q]; [split; [apply A, K | rewrite <- Wt; exact Rg] | apply C, Q].
      + intros x X. destruct (D x X) as [Y|Y]; [|auto]. destruct (IH t k u E x Y) as [Z|Z]; [auto | right; apply (W _ _ _ A Z)]. }
  destruct (compile_items (compile_file f) l (go_to e (mark n s))) as [t|t|] eqn:E; cbn [restore] in H; inversion H; subst s'. cbn [go_to parsed] in *.
  destruct (G l (go_to e (mark n s)) t eq_refl E) as (A & B & C & D). destruct (D m M) as [X|X]; [|auto]. cbn [go_to mark parsed] in X. apply in_app_or in X. destruct X as [X|[<-|[]]]; [auto|].
  right. exists (cwd s), l. auto.
Qed.

(** ** C178: which file is meant *)

(** REFUTED: that an import reads the file that the name means where it is written.  A name that
    has been compiled, in whatever directory, is not read again. *)
Theorem C178_not_read_refuted : forall f s n, In n (parsed s) -> compile_file (S f) s n = Done s.
Proof. intros f s n I. rewrite file_S. destruct (in_dec name_dec n (parsed s)); [reflexivity | contradiction]. Qed.
(** REFUTED: that a file is compiled once.  With two names it is compiled twice. *)
Theorem C178_two_names_refuted : forall f g s n m xs, ~ In n (parsed s) -> ~ In m (parsed s) -> n <> m -> read (cwd s) n = Some (map Stmt xs) -> read (cwd s) m = read (cwd s) n ->
  exists s1 s2, compile_file (S f) s n = Done s1 /\ compile_file (S g) s1 m = Done s2 /\ code s2 = code s ++ xs ++ xs.
Proof.
  intros f g s n m xs N M D R Q.
  assert (G : forall h ys t, compile_items (compile_file h) (map Stmt ys) t = Done (mkS (parsed t) (cwd t) (code t ++ ys))).
  { intros h. induction ys as [|y ys IY]; intros t; cbn [map ImportModel.compile_items]; [rewrite app_nil_r; destruct t; reflexivity|]. rewrite IY. cbn [emit parsed cwd code]. rewrite <- app_assoc. reflexivity. }
  eexists _, _. rewrite file_S. destruct (in_dec name_dec n (parsed s)); [contradiction|]. rewrite R, G. cbn [restore go_to mark parsed cwd code]. split; [reflexivity|].
  rewrite file_S. cbn [go_to parsed cwd code mark]. destruct (in_dec name_dec m (parsed s ++ [n])) as [I|I]; [exfalso; apply in_app_or in I; cbn in I; intuition congruence|].
  rewrite Q, R, G. cbn [restore go_to mark parsed cwd code]. split; [reflexivity|]. cbn [go_to code]. rewrite app_assoc. reflexivity.
Qed.
End Claims.

(** REFUTED: that a file with an error is reported, or compiled once it has been corrected.  The
    second attempt succeeds and compiles nothing, whatever the files have become. *)
Theorem C178_failed_refuted : forall dir cd regular read cd' regular' read' f g s n s', compile_file dir cd regular read f s n = Error s' -> compile_file dir cd' regular' read' (S g) s' n = Done s'.
Proof. intros dir cd regular read cd' regular' read' f g s n s' H. apply C178_not_read_refuted. apply (grows dir cd regular read f s n s' (or_intror H)). Qed.

(** ** Cases *)
(** The directories 0, 1 (a) and 2 (b); the names a/x, b/x and lib. *)
Definition ax : name := [1]. Definition bx : name := [2]. Definition lib : name := [3]. Definition main : name := [4].
Definition cd3 (d : Z) (n : name) : Z := if name_dec n ax then 1 else if name_dec n bx then 2 else d.
Definition disk (la lb : list Z) (d : Z) (n : name) : option (list item) :=
  if name_dec n main then Some [Import ax; Import bx; Stmt 9]
  else if name_dec n ax then Some [Import lib; Stmt 1] else if name_dec n bx then Some [Import lib; Stmt 2]
  else if name_dec n lib then Some (map Stmt (if d =? 1 then la else lb)) else None.
(** REFUTED: two files with the same name in two directories are both needed, and only one of
    them is compiled. *)
Theorem C178_same_name_refuted : forall la lb, exists s, compile_file Z cd3 (fun _ _ => true) (disk la lb) 4 (mkS [] 0 []) main = Done s /\ code s = la ++ [1; 2; 9].
Proof.
  intros la lb.
  assert (G : forall h ys t, compile_items Z (fun _ _ => true) h (map Stmt ys) t = Done (mkS (parsed t) (cwd t) (code t ++ ys))).
  { intros h. induction ys as [|y ys IY]; intros t; cbn [map compile_items]; [rewrite app_nil_r; destruct t; reflexivity|]. rewrite IY. cbn [emit parsed cwd code]. rewrite <- app_assoc. reflexivity. }
  cbn -[map compile_items]. cbn [compile_items]. cbn -[map]. rewrite G. cbn -[map]. eexists. split; [reflexivity|]. cbn. rewrite <- !app_assoc. reflexivity.
Qed.
(** Two files that import each other, and one that both need. *)
Definition circle (_ : unit) (n : name) : option (list item) :=
  if name_dec n ax then Some [Import bx; Import lib; Stmt 1] else if name_dec n bx then Some [Import ax; Import lib; Stmt 2]
  else if name_dec n lib then Some [Stmt 3] else None.
Example C177_case : names_say unit (fun _ _ => tt) circle tt (fun _ => True) /\ compile_file unit (fun _ _ => tt) (fun _ _ => true) circle 4 (mkS [] tt []) ax = Done (mkS [ax; bx; lib] tt [3; 2; 1])
  /\ (forall d m l k, In m [ax; bx; lib] -> circle d m = Some l -> In k (imports l) -> In k [ax; bx; lib]).
Proof.
  split; [intros [] n; split; auto|]. split; [vm_compute; reflexivity|]. intros d m l k [<-|[<-|[<-|[]]]] E; inversion E; subst l; cbn; intuition.
Qed.
Example C178_case : compile_file unit (fun _ _ => tt) (fun _ _ => true) (fun _ _ => Some [Stmt 1; Bad]) 4 (mkS [] tt []) ax = Error (mkS [ax] tt [1])
  /\ compile_file unit (fun _ _ => tt) (fun _ _ => true) (fun _ _ => Some [Stmt 1]) 4 (mkS [ax] tt []) bx = Done (mkS [ax; bx] tt [1]).
Proof. split; vm_compute; reflexivity. Qed.

Print Assumptions C177_directory.
Print Assumptions C177_no_name_twice.
Print Assumptions C177_ends.
Print Assumptions C177_succeeds.
Print Assumptions C177_each_once_partial.
Print Assumptions C177_order_partial.
Print Assumptions C177_no_errors.
Print Assumptions C178_not_read_refuted.
Print Assumptions C178_failed_refuted.
Print Assumptions C178_two_names_refuted.
Print Assumptions C178_same_name_refuted.
