(** Claim C173: the parts of a path. *)
From Coq Require Import List ZArith Lia.
From Verif Require Import Base StringModel StringSpec StringProofs StringProps PathModel.
Import ListNotations.
Local Open Scope Z_scope.

(** ** The claim, without the model's functions *)
Definition separator (c : Z) : Prop := c = 47 \/ c = 92.
Definition free (P : Z -> Prop) (l : list Z) : Prop := forall c, In c l -> ~ P c.
(** [l] is the file [f] in the directory [d]; [d] is empty if there is no separator. *)
Definition parts (l d f : list Z) : Prop :=
  free separator f /\ ((d = [] /\ l = f) \/ exists c, separator c /\ l = d ++ c :: f).
(** [n] is the name of the file [f] without its last extension; a point at the front belongs
    to the name. *)
Definition base_name (f n : list Z) : Prop :=
  (n = f /\ (free (eq 46) f \/ exists e, f = 46 :: e /\ free (eq 46) e)) \/
  (n <> [] /\ exists e, f = n ++ 46 :: e /\ free (eq 46) e).

(** ** Lemmas *)
Lemma find_last : forall s l p, srep s l -> nonul p -> l <> [] ->
  exists t k, s_lit p = Ok t /\ s_findLastOf s t (-1) = Ok k /\
  ((k = -1 /\ forall y, In y l -> ~ In y p) \/
   (exists u y v, l = u ++ y :: v /\ k = zlen u /\ In y p /\ forall z, In z v -> ~ In z p)).
Proof.
  intros s l p R Hp Hl. destruct (s_lit_ok p Hp) as (t & Et & Rt & _).
  destruct (C68_findLastOf_last s l t p R Rt Hl) as (k & Ek & D). exists t, k. auto.
Qed.
Lemma rest_sub : forall s a m, srep s (a ++ m) -> exists r, s_getSubstring s (zlen a) (-1) = Ok r /\ srep r m.
Proof.
  intros s a m R. pose proof R as R'. rewrite <- (app_nil_r m) in R'. destruct (getSub_ok s a m [] R') as (r & E & Rr & _).
  exists r. split; [|exact Rr]. rewrite <- E. unfold s_getSubstring. rewrite (sr_count _ _ R), zlen_app.
  pose proof (zlen_nonneg m). change (-1 =? -1) with true. destruct (Z.eqb_spec (zlen m) (-1)); [lia|].
  replace (zlen a + zlen m - zlen a) with (zlen m) by lia. reflexivity.
Qed.
Lemma first_sub : forall s a m, srep s (a ++ m) -> exists r, s_getSubstring s 0 (zlen a) = Ok r /\ srep r a.
Proof. intros s a m R. destruct (getSub_ok s [] a m R) as (r & E & Rr & _). exists r. auto. Qed.
Lemma sep_set : forall c, separator c <-> In c [47; 92].
Proof. intros c. unfold separator. cbn. intuition. Qed.
Lemma sep_nonul : nonul [47; 92] /\ nonul [92; 47] /\ nonul [46].
Proof. repeat split; repeat constructor; intros H; discriminate H. Qed.

Lemma filename_parts : forall s l, srep s l -> l <> [] ->
  exists r d f, getFilename s = Ok r /\ srep r f /\ parts l d f.
Proof.
  intros s l R Hl. unfold getFilename. destruct (s_copy_ok s l R) as (ss & -> & Rs & _). cbn [rbind].
  destruct (find_last s l [47; 92] R (proj1 sep_nonul) Hl) as (t & k & -> & E & D). cbn [rbind]. rewrite E. cbn [rbind].
  destruct D as [(-> & N)|(u & y & v & -> & -> & Hy & Hv)].
  - exists ss, [], l. split; [reflexivity|]. split; [exact Rs|]. split; [|left; auto]. intros c Hc S. apply (N c Hc), sep_set, S.
  - pose proof (zlen_nonneg u). destruct (Z.eqb_spec (zlen u) (-1)); [lia|].
    assert (R' : srep s ((u ++ [y]) ++ v)) by (rewrite <- app_assoc; exact R).
    destruct (rest_sub s (u ++ [y]) v R') as (r & Er & Rr). rewrite zlen_app in Er. change (zlen [y]) with 1 in Er. rewrite Er. cbn [rbind].
    destruct (s_copy_ok r v Rr) as (r' & -> & Rr' & _). exists r', u, v. split; [reflexivity|]. split; [exact Rr'|]. split.
    + intros c Hc S. apply (Hv c Hc), sep_set, S.
    + right. exists y. split; [apply sep_set, Hy | reflexivity].
Qed.
Lemma directory_parts : forall s l, srep s l -> l <> [] ->
  exists r d f, getDirectory false s = Ok r /\ srep r d /\ parts l d f.
Proof.
  intros s l R Hl. unfold getDirectory.
  destruct (find_last s l [92; 47] R (proj1 (proj2 sep_nonul)) Hl) as (t & k & -> & E & D). cbn [rbind]. rewrite E. cbn [rbind].
  assert (SS : forall c, separator c <-> In c [92; 47]) by (intros c; unfold separator; cbn; intuition).
  destruct D as [(-> & N)|(u & y & v & -> & -> & Hy & Hv)].
  - destruct (s_lit_ok [] nonul_nil) as (r & Er & Rr & _). cbn [Z.eqb Pos.eqb]. exists r, [], l. split; [exact Er|]. split; [exact Rr|]. split; [|left; auto].
    intros c Hc S. apply (N c Hc), SS, S.
  - pose proof (zlen_nonneg u). destruct (Z.eqb_spec (zlen u) (-1)); [lia|].
    destruct (first_sub s u (y :: v) R) as (r & Er & Rr). exists r, u, v. split; [exact Er|]. split; [exact Rr|]. split.
    + intros c Hc S. apply (Hv c Hc), SS, S.
    + right. exists y. split; [apply SS, Hy | reflexivity].
Qed.
(** The parts are determined by the path. *)
Lemma split_last : forall (P : Z -> Prop) d c f d' c' f', P c -> P c' -> free P f -> free P f' ->
  d ++ c :: f = d' ++ c' :: f' -> d = d' /\ c = c' /\ f = f'.
Proof.
  intros P d. induction d as [|x d IH]; intros c f [|x' d'] c' f' Hc Hc' F F' E; cbn in E; injection E as -> E.
  - auto.
  - subst f. exfalso. apply (F c'); [apply in_or_app; right; left; reflexivity | exact Hc'].
  - subst f'. exfalso. apply (F' c); [apply in_or_app; right; left; reflexivity | exact Hc].
  - destruct (IH c f d' c' f' Hc Hc' F F' E) as (-> & -> & ->). auto.
Qed.
Lemma parts_same : forall l d f d' f', parts l d f -> parts l d' f' -> d = d' /\ f = f'.
Proof.
  intros l d f d' f' (F & D) (F' & D').
  destruct D as [(-> & ->)|(c & Hc & ->)], D' as [(-> & E)|(c' & Hc' & E)].
  - auto.
  - exfalso. apply (F c'); [rewrite E; apply in_or_app; right; left; reflexivity | exact Hc'].
  - exfalso. apply (F' c); [rewrite <- E; apply in_or_app; right; left; reflexivity | exact Hc].
  - destruct (split_last separator d c f d' c' f' Hc Hc' F F' E) as (-> & _ & ->). auto.
Qed.

(** ** C173 *)

(** Directory and file name of a path that is not empty and no directory: with the separator
    between them they are the path again. *)
Theorem C173_parts_partial : forall s l, srep s l -> l <> [] ->
  exists r1 r2 d f, getDirectory false s = Ok r1 /\ getFilename s = Ok r2 /\ shows r1 d /\ shows r2 f /\
  parts l d f /\ forall d' f', parts l d' f' -> d' = d /\ f' = f.
Proof.
  intros s l R Hl. destruct (directory_parts s l R Hl) as (r1 & d & f & E1 & R1 & P1).
  destruct (filename_parts s l R Hl) as (r2 & d2 & f2 & E2 & R2 & P2). destruct (parts_same _ _ _ _ _ P1 P2) as (-> & ->).
  exists r1, r2, d2, f2. split; [exact E1|]. split; [exact E2|]. split; [apply rep_shows, R1|]. split; [apply rep_shows, R2|]. split; [exact P2|].
  intros d' f' P. destruct (parts_same _ _ _ _ _ P P2) as (-> & ->). auto.
Qed.
Print Assumptions C173_parts_partial.
(** A directory is its own directory. *)
Theorem C173_directory : forall s l, srep s l -> exists r, getDirectory true s = Ok r /\ shows r l.
Proof. intros s l R. destruct (s_copy_ok s l R) as (r & E & Rr & _). exists r. split; [exact E | apply rep_shows, Rr]. Qed.
Print Assumptions C173_directory.
(** The name without extension of a path that does not end with a separator. *)
Theorem C173_base_name_partial : forall s l d f, srep s l -> parts l d f -> f <> [] ->
  exists r n, getFilenameWithoutExtension s = Ok r /\ shows r n /\ base_name f n.
Proof.
  intros s l d f R P Hf. assert (Hl : l <> []) by (destruct P as (_ & [(_ & ->)|(c & _ & ->)]); [exact Hf | destruct d; discriminate]).
  destruct (filename_parts s l R Hl) as (r & d' & f' & E & Rr & P'). destruct (parts_same _ _ _ _ _ P P') as (<- & <-).
  unfold getFilenameWithoutExtension. rewrite E. cbn [rbind]. destruct (s_copy_ok r f Rr) as (w & -> & Rw & _). cbn [rbind].
  destruct (find_last w f [46] Rw (proj2 (proj2 sep_nonul)) Hf) as (t & k & -> & Ek & D). cbn [rbind]. rewrite Ek. cbn [rbind].
  destruct D as [(-> & N)|(u & y & v & -> & -> & Hy & Hv)].
  - exists w, f. split; [reflexivity|]. split; [apply rep_shows, Rw|]. left. split; [reflexivity|]. left. intros c Hc <-. apply (N 46 Hc). left; reflexivity.
  - destruct Hy as [<-|[]]. assert (Fv : free (eq 46) v) by (intros c Hc <-; apply (Hv 46 Hc); left; reflexivity).
    pose proof (zlen_nonneg u). destruct (Z.eqb_spec (zlen u) (-1)); [lia|]. destruct (Z.eqb_spec (zlen u) 0) as [Z0|NZ].
    + apply zlen_0 in Z0. subst u. exists w, (46 :: v). split; [reflexivity|]. split; [apply rep_shows, Rw|]. left. split; [reflexivity|]. right. exists v. auto.
    + destruct (first_sub w u (46 :: v) Rw) as (q & Eq & Rq). exists q, u. split; [exact Eq|]. split; [apply rep_shows, Rq|]. right. split; [|exists v; auto].
      intros ->. apply NZ. reflexivity.
Qed.
Print Assumptions C173_base_name_partial.

(** The empty path: the byte before the text is read. *)
Theorem C173_empty_path_refuted : forall s, srep s [] ->
  getDirectory false s = UB /\ getFilename s = UB /\ getFilenameWithoutExtension s = UB.
Proof.
  intros s R. destruct sep_nonul as (N1 & N2 & _).
  destruct (s_lit_ok _ N1) as (t1 & E1 & R1 & _), (s_lit_ok _ N2) as (t2 & E2 & R2 & _), (s_copy_ok s [] R) as (c & Ec & _).
  assert (F : getFilename s = UB) by (unfold getFilename; rewrite Ec; cbn [rbind]; rewrite E1; cbn [rbind]; rewrite (C68_findLastOf_empty_refuted s t1 _ R R1); reflexivity).
  split; [|split; [exact F|]].
  - unfold getDirectory. rewrite E2. cbn [rbind]. rewrite (C68_findLastOf_empty_refuted s t2 _ R R2). reflexivity.
  - unfold getFilenameWithoutExtension. rewrite F. reflexivity.
Qed.
Print Assumptions C173_empty_path_refuted.
(** A path that ends with a separator has an empty file name, and the byte before it is read. *)
Theorem C173_no_file_refuted : forall s d c, srep s (d ++ [c]) -> separator c -> getFilenameWithoutExtension s = UB.
Proof.
  intros s d c R Hc. assert (P : parts (d ++ [c]) d []) by (split; [intros x [] | right; exists c; auto]).
  destruct (filename_parts s _ R) as (r & d' & f' & E & Rr & P'); [destruct d; discriminate|]. destruct (parts_same _ _ _ _ _ P P') as (<- & <-).
  unfold getFilenameWithoutExtension. rewrite E. cbn [rbind]. destruct (s_copy_ok r [] Rr) as (w & -> & Rw & _). cbn [rbind].
  destruct (s_lit_ok _ (proj2 (proj2 sep_nonul))) as (t & -> & Rt & _). cbn [rbind]. rewrite (C68_findLastOf_empty_refuted w t _ Rw Rt). reflexivity.
Qed.
Print Assumptions C173_no_file_refuted.
(** The directory of a file in the root is the empty text, as for a file without a
    directory. *)
Theorem C173_root_refuted : forall s c f, srep s (c :: f) -> separator c -> free separator f ->
  exists r, getDirectory false s = Ok r /\ shows r [].
Proof.
  intros s c f R Hc F. destruct (directory_parts s _ R) as (r & d & f' & E & Rr & P); [discriminate|].
  assert (P0 : parts (c :: f) [] f) by (split; [exact F | right; exists c; auto]).
  destruct (parts_same _ _ _ _ _ P0 P) as (<- & _). exists r. split; [exact E | apply rep_shows, Rr].
Qed.
Print Assumptions C173_root_refuted.

Definition text_of (x : res cstring) : res (list Z) := do s <- x; ofo (cstr (cchars s) 0).
Definition on (f : cstring -> res cstring) (l : list Z) : res (list Z) := do s <- s_lit l; text_of (f s).
Example C173_case :
  (* a/b\c.d.e *)
  on (getDirectory false) [97; 47; 98; 92; 99; 46; 100; 46; 101] = Ok [97; 47; 98] /\
  on getFilename [97; 47; 98; 92; 99; 46; 100; 46; 101] = Ok [99; 46; 100; 46; 101] /\
  on getFilenameWithoutExtension [97; 47; 98; 92; 99; 46; 100; 46; 101] = Ok [99; 46; 100] /\
  on getFilenameWithoutExtension [97; 47; 46; 100] = Ok [46; 100] /\
  on (getDirectory false) [47; 97] = Ok [] /\ on getFilenameWithoutExtension [97; 47] = UB /\ on getFilename [] = UB /\
  parts [97; 47; 98; 92; 99; 46; 100; 46; 101] [97; 47; 98] [99; 46; 100; 46; 101].
Proof.
  repeat (split; [vm_compute; reflexivity|]). split.
  - intros c H [E|E]; subst c; cbn in H; intuition discriminate.
  - right. exists 92. split; [right|]; reflexivity.
Qed.
