(** Properties C09-C18, C67, C68 of the string class.

    [srep s l] (StringProofs.v) says that the object [s] is a valid string holding the
    characters [l]: its buffer is [l], then at least one NUL, and its counters agree.
    C67 shows that every history of calls starting from the empty string leads to such
    an object; the other theorems hold for all of them. *)
From Coq Require Import List ZArith Bool Lia.
From Verif Require Import Base StringModel StringSpec StringProofs.
Import ListNotations.
Open Scope Z_scope.

(** What a caller can see of a string: toConstChar() and length(). *)
Definition shows (s : cstring) (l : list Z) : Prop :=
  cstr (cchars s) 0 = Some l /\ scount s = zlen l.
Lemma rep_shows s l : srep s l -> shows s l.
Proof. intros R. split; [now apply cstr_cchars|apply R]. Qed.

(** ** C67: histories of mutators *)

(** Meaning of a call on a character sequence: [Some (l', ok)]; [None] where the source
    makes no promise (negative position or length, NUL characters, a replaced range that
    leaves the string). *)
Definition seq_sop (o : sop) (l : list Z) : option (list Z * bool) :=
  let n := zlen l in
  match o with
  | SSet m => Some (m, true)
  | SAppend m | SPlus m => Some (l ++ m, true)
  | SAppendChar c => Some (l ++ [c], true)
  | SInsert p m =>
    if p <? 0 then None
    else if n <=? p then Some (l, false)
    else Some (firstn (Z.to_nat p) l ++ m ++ skipn (Z.to_nat p) l, true)
  | SInsertChar p c =>
    if p <? 0 then None
    else if n <=? p then Some (l, false)
    else Some (firstn (Z.to_nat p) l ++ c :: skipn (Z.to_nat p) l, true)
  | SErase p k =>
    if (p <? 0) || (k <? 0) then None
    else if (n <=? p) || (n <? p + k) then Some (l, false)
    else Some (firstn (Z.to_nat p) l ++ skipn (Z.to_nat (p + k)) l, true)
  | SSetSub p k m =>
    if (p <? 0) || (k <? 0) || (n <? p + k) then None
    else if n <=? p then Some (l, false)
    else let r := firstn (Z.to_nat p) l ++ m ++ skipn (Z.to_nat (p + k)) l in
         if zlen r =? 0 then Some (l, false) else Some (r, true)
  | SPut p c =>
    if (p <? 0) || (n <=? p) then Some (l, false)
    else Some (firstn (Z.to_nat p) l ++ c :: skipn (Z.to_nat (p + 1)) l, true)
  | SClear => Some ([], true)
  end.
Definition sop_nonul (o : sop) : Prop :=
  match o with
  | SSet m | SAppend m | SPlus m | SInsert _ m | SSetSub _ _ m => nonul m
  | SAppendChar c | SInsertChar _ c | SPut _ c => c <> 0
  | _ => True
  end.
Fixpoint seq_srun (os : list sop) (l : list Z) : option (list Z * list bool) :=
  match os with
  | [] => Some (l, [])
  | o :: r =>
    match seq_sop o l with
    | Some (l', b) => option_map (fun x => (fst x, b :: snd x)) (seq_srun r l')
    | None => None
    end
  end.

Lemma split3 (l : list Z) p k : 0 <= p -> 0 <= k -> p + k <= zlen l ->
  exists a m b, l = a ++ m ++ b /\ zlen a = p /\ zlen m = k /\
    firstn (Z.to_nat p) l = a /\ skipn (Z.to_nat (p + k)) l = b.
Proof.
  intros Hp Hk Hl. unfold zlen in *.
  exists (firstn (Z.to_nat p) l), (firstn (Z.to_nat k) (skipn (Z.to_nat p) l)), (skipn (Z.to_nat (p + k)) l).
  assert (E : skipn (Z.to_nat (p + k)) l = skipn (Z.to_nat k) (skipn (Z.to_nat p) l)).
  { assert (G : forall (x : list Z) i j, skipn (i + j) x = skipn j (skipn i x)).
    { intros x i j; revert x; induction i as [|i IH]; intros x; simpl; auto.
      destruct x; simpl; auto. now rewrite skipn_nil. }
    rewrite <- G. f_equal. lia. }
  repeat split; auto.
  - rewrite E, !firstn_skipn. reflexivity.
  - rewrite firstn_length. lia.
  - rewrite firstn_length, skipn_length. lia.
Qed.
Lemma split2 (l : list Z) p : 0 <= p <= zlen l ->
  exists a b, l = a ++ b /\ zlen a = p /\ firstn (Z.to_nat p) l = a /\ skipn (Z.to_nat p) l = b.
Proof.
  intros Hp. destruct (split3 l p 0) as (a & m & b & E & Ha & Hm & Hf & Hs); try lia.
  apply zlen_0 in Hm. subst m. rewrite Z.add_0_r in Hs. exists a, b. auto.
Qed.

Lemma sop_ok o s l : srep s l -> sop_nonul o -> forall l' b, seq_sop o l = Some (l', b) ->
  if b then exists s', c_op o s = Ok s' /\ srep s' l' else c_op o s = Thr /\ l' = l.
Proof.
  intros R Hn l' b H. pose proof (zlen_nonneg l) as Hl.
  destruct o as [m|m|c|m|p m|p c|p k|p k m|p c|]; cbn [seq_sop sop_nonul c_op] in *.
  - inversion H; subst. destruct (s_lit_ok _ Hn) as (s' & E & R' & _). eauto.
  - inversion H; subst. destruct (s_lit_ok _ Hn) as (t & E & Rt & Ht). rewrite E. cbn [rbind].
    apply append_ok; auto.
  - inversion H; subst. apply append_char_ok; auto.
  - inversion H; subst. destruct (s_lit_ok _ Hn) as (t & E & Rt & Ht). rewrite E. cbn [rbind].
    destruct (plus_ok s l t m R Rt) as (r & Er & Rr). rewrite Er. cbn [rbind].
    destruct (s_copy_ok r _ Rr) as (c & Ec & Rc & _). eauto.
  - destruct (s_lit_ok _ Hn) as (t & E & Rt & Ht). rewrite E. cbn [rbind].
    destruct (Z.ltb_spec p 0); [discriminate|]. destruct (Z.leb_spec (zlen l) p); inversion H; subst; clear H.
    + split; auto. unfold s_insert. rewrite (sr_count _ _ R). destruct (Z.leb_spec (zlen l') p); [auto|lia].
    + destruct (split2 l p) as (a & b & -> & <- & -> & ->); [lia|]. apply insert_ok; auto.
      intros ->. rewrite app_nil_r in *. lia.
  - destruct (Z.ltb_spec p 0); [discriminate|]. destruct (Z.leb_spec (zlen l) p); inversion H; subst; clear H.
    + split; auto. unfold s_insert_char. rewrite (sr_count _ _ R). destruct (Z.leb_spec (zlen l') p); [auto|lia].
    + destruct (split2 l p) as (a & b & -> & <- & -> & ->); [lia|]. apply insert_char_ok; auto.
      intros ->. rewrite app_nil_r in *. lia.
  - destruct (Z.ltb_spec p 0); [discriminate|]. destruct (Z.ltb_spec k 0); [discriminate|]. cbn [orb] in H.
    unfold s_erase. rewrite (sr_count _ _ R).
    destruct (Z.leb_spec (zlen l) p); [inversion H; subst; auto|].
    destruct (Z.ltb_spec (zlen l) (p + k)); [inversion H; subst; auto|]. cbn [orb] in H. inversion H; subst; clear H.
    destruct (split3 l p k) as (a & m & b & -> & <- & <- & -> & ->); try lia.
    destruct (erase_ok s a m b R) as (s' & E & R' & _).
    { intros Hnil. rewrite Hnil, app_nil_r in *. lia. }
    exists s'. split; auto. unfold s_erase in E. rewrite (sr_count _ _ R) in E.
    destruct (Z.leb_spec (zlen (a ++ m ++ b)) (zlen a)); [lia|].
    destruct (Z.ltb_spec (zlen (a ++ m ++ b)) (zlen a + zlen m)); [lia|]. exact E.
  - destruct (s_lit_ok _ Hn) as (t & E & Rt & Ht). rewrite E. cbn [rbind].
    destruct (Z.ltb_spec p 0); [discriminate|]. destruct (Z.ltb_spec k 0); [discriminate|].
    destruct (Z.ltb_spec (zlen l) (p + k)); [discriminate|]. cbn [orb] in H.
    destruct (Z.leb_spec (zlen l) p).
    + inversion H; subst. split; auto. unfold s_setSubstring. rewrite (sr_count _ _ R).
      destruct (Z.leb_spec (zlen l') p); [auto|lia].
    + destruct (split3 l p k) as (a & m0 & b0 & -> & <- & <- & Hf & Hs); try lia. rewrite Hf, Hs in H.
      destruct (Z.eqb_spec (zlen (a ++ m ++ b0)) 0) as [E0|E0]; inversion H; subst; clear H.
      * split; auto. apply zlen_0 in E0. apply app_eq_nil in E0. destruct E0 as [-> E0].
        apply app_eq_nil in E0. destruct E0 as [-> ->]. cbn [app] in *. rewrite app_nil_r in *.
        rewrite zlen_nil. apply setSub_empty; auto.
      * apply setSub_ok; auto.
        -- intros Hnil. rewrite Hnil, app_nil_r in *. lia.
        -- intros Hnil. rewrite Hnil in E0. now apply E0.
  - pose proof (put_ok s l p c R Hn) as P.
    destruct (Z.ltb_spec p 0), (Z.leb_spec (zlen l) p), (Z.leb_spec 0 p), (Z.ltb_spec p (zlen l)); try lia;
      cbn [orb andb] in *; inversion H; subst; auto.
    destruct P as (s' & E & R'). exists s'. split; auto. rewrite upd_split in R' by (unfold zlen in *; lia).
    replace (Z.to_nat (p + 1)) with (S (Z.to_nat p)) by lia. exact R'.
  - inversion H; subst. exists s_new. split; auto using srep_new.
Qed.

Lemma run_ok os : forall s l, srep s l -> Forall sop_nonul os -> forall l' bs, seq_srun os l = Some (l', bs) ->
  exists s', c_run os s = Ok (s', bs) /\ srep s' l'.
Proof.
  induction os as [|o os IH]; intros s l R F l' bs H; cbn [seq_srun c_run] in *.
  - inversion H; subst. eauto.
  - inversion F; subst. destruct (seq_sop o l) as [[l1 b]|] eqn:E; [|discriminate].
    destruct (seq_srun os l1) as [[l2 bs']|] eqn:E2; [|discriminate]. inversion H; subst; clear H.
    pose proof (sop_ok o s l R H2 l1 b E) as S. destruct b.
    + destruct S as (s1 & -> & R1). destruct (IH s1 l1 R1 H3 _ _ E2) as (s' & -> & R'). cbn [rbind]. eauto.
    + destruct S as (-> & ->). destruct (IH s l R H3 _ _ E2) as (s' & -> & R'). cbn [rbind]. eauto.
Qed.

(** C67. Any history of appends, insertions, erasures, replacements, element writes and
    clears on a string has the effect of the same history on a character sequence, and
    refuses exactly the calls the sequence refuses. *)
Theorem C67_string_refines_sequence :
  forall os l bs, Forall sop_nonul os -> seq_srun os [] = Some (l, bs) ->
  exists s, c_run os s_new = Ok (s, bs) /\ shows s l /\
    forall i, s_at s i = if (0 <=? i) && (i <? zlen l) then Ok (nth (Z.to_nat i) l 0) else Thr.
Proof.
  intros os l bs F H. destruct (run_ok os s_new [] srep_new F l bs H) as (s & E & R).
  exists s. split; auto. split; [now apply rep_shows|]. intros i. now apply at_ok.
Qed.
Print Assumptions C67_string_refines_sequence.

Example C67_case :
  seq_srun [SSet [97; 98; 99]; SInsert 1 [120; 121]; SErase 0 2; SErase 3 1; SSetSub 1 2 [122]; SPut 0 113;
            SAppendChar 33; SPlus [43]; SAppend [44]; SSetSub 0 5 []; SClear; SInsertChar 0 65] []
  = Some ([], [true; true; true; false; true; true; true; true; true; false; true; false])
  /\ seq_srun [SSet [97; 98; 99]; SInsert 1 [120; 121]; SErase 0 2; SPut 0 113; SAppendChar 33] []
  = Some ([113; 98; 99; 33], [true; true; true; true; true]).
Proof. split; reflexivity. Qed.

(** C67, appending a string to itself: when the buffer has to grow, the old buffer is
    freed before it is copied from. This happens at length 16. *)
Theorem C67_append_self_small :
  forall s l, srep s l -> scount s + zlen l < ssize s -> l <> [] ->
  exists s', s_append_self s = Ok s' /\ srep s' (l ++ l).
Proof.
  intros s l R H Hne. unfold s_append_self.
  destruct (sr_buf _ _ R) as [(Hb & E & _)|(k & Hk & Hb & Hs)]; [congruence|]. rewrite Hb.
  unfold c_strlen. rewrite zeros_succ by auto. rewrite cstr0_ok by apply R. cbn [option_map ofo rbind].
  destruct (Z.leb_spec (ssize s) (scount s + zlen l)); [lia|].
  apply append_buf_ok; auto. apply R.
  pose proof (zlen_nonneg l). assert (zlen l <> 0) by (intros E; apply zlen_0 in E; auto). lia.
Qed.
Print Assumptions C67_append_self_small.
Theorem C67_append_self_refuted :
  forall s l, srep s l -> ssize s <= scount s + zlen l -> l <> [] -> s_append_self s = UB.
Proof.
  intros s l R H Hne. unfold s_append_self.
  destruct (sr_buf _ _ R) as [(Hb & E & _)|(k & Hk & Hb & Hs)]; [congruence|]. rewrite Hb.
  unfold c_strlen. rewrite zeros_succ by auto. rewrite cstr0_ok by apply R. cbn [option_map ofo rbind].
  destruct (Z.leb_spec (ssize s) (scount s + zlen l)); [auto|lia].
Qed.
Print Assumptions C67_append_self_refuted.
(** Any literal of 16 or more characters meets the hypothesis. *)
Theorem C67_append_self_reachable :
  forall l, nonul l -> 16 <= zlen l ->
  exists s, s_lit l = Ok s /\ srep s l /\ s_append_self s = UB.
Proof.
  intros l Hn Hl. destruct (s_lit_ok l Hn) as (s & E & R & _). exists s. split; auto. split; auto.
  apply (C67_append_self_refuted s l R).
  - rewrite (sr_count _ _ R). unfold s_lit, s_set, c_strlen in E.
    change (l ++ [0]) with (l ++ 0 :: []) in E. rewrite cstr0_ok in E by auto. cbn [option_map ofo rbind] in E.
    destruct (c_strcpy _ _ _ _); [|discriminate]. cbn [ofo rbind] in E. inversion E; subst. cbn [ssize]. lia.
  - intros ->. rewrite zlen_nil in Hl. lia.
Qed.
Print Assumptions C67_append_self_reachable.

(** ** C09: indexOf *)

(** Guard: not both strings empty (see the refutation). *)
Theorem C09_indexOf_first_occurrence :
  forall s l t p, srep s l -> srep t p -> (l = [] -> p <> []) ->
  exists k, zs_indexOf s t = Ok k /\
   ((k = -1 /\ ~ occurs p l) \/
    (0 <= k /\ occurs_at p l (Z.to_nat k) /\ forall i, occurs_at p l i -> (Z.to_nat k <= i)%nat)).
Proof.
  intros s l t p R Rt H. destruct (find_spec s l t p R Rt H) as (k & E & S). exists k. split; auto.
  destruct S as [S|(H0 & H1 & H2)]; auto. right. repeat split; auto.
  intros i O. destruct (Nat.le_gt_cases (Z.to_nat k) i) as [|Hlt]; auto. exfalso. exact (H2 i Hlt O).
Qed.
Print Assumptions C09_indexOf_first_occurrence.
Example C09_case :
  occurs_at [98; 97] [97; 98; 97; 98; 97] 1 /\
  (do s <- s_lit [97; 98; 97; 98; 97]; do p <- s_lit [98; 97]; zs_indexOf s p) = Ok 1 /\
  (do s <- s_lit [97; 98; 97]; do p <- s_lit [97; 97]; zs_indexOf s p) = Ok (-1).
Proof. split; [exists [97], [98; 97]; auto|split; vm_compute; reflexivity]. Qed.

(** The character overload. *)
Theorem C09_indexOf_char :
  forall s l c, srep s l -> 0 < c < 256 ->
  exists k, zs_indexOf_char s c = Ok k /\
   ((k = -1 /\ ~ In c l) \/
    (0 <= k /\ nth_error l (Z.to_nat k) = Some c /\ forall i, nth_error l i = Some c -> (Z.to_nat k <= i)%nat)).
Proof.
  intros s l c R Hc. unfold zs_indexOf_char. rewrite Z.mod_small by lia.
  destruct (s_lit_ok [] nonul_nil) as (e & -> & Re & _). cbn [rbind].
  destruct (append_char_ok e [] c Re) as (p & -> & Rp); [lia|]. cbn [rbind].
  assert (Hocc : forall i, occurs_at [c] l i <-> nth_error l i = Some c).
  { intros i. split.
    - intros (a & b & -> & <-). rewrite nth_error_app2 by lia. now rewrite Nat.sub_diag.
    - intros H. apply nth_error_split in H. destruct H as (a & b & -> & <-). exists a, b. auto. }
  destruct (find_spec s l p [c] R Rp) as (k & -> & S); [discriminate|]. exists k. split; auto.
  destruct S as [(-> & Hno)|(H0 & H1 & H2)].
  - left. split; auto. intros Hin. apply In_nth_error in Hin. destruct Hin as [i Hi]. apply Hno. exists i. now apply Hocc.
  - right. repeat split; auto; [now apply Hocc|]. intros i Hi.
    destruct (Nat.le_gt_cases (Z.to_nat k) i) as [|Hlt]; auto. exfalso. apply (H2 i Hlt). now apply Hocc.
Qed.
Print Assumptions C09_indexOf_char.
Example C09_char_case : (do s <- s_lit [104; 101; 108; 108; 111]; zs_indexOf_char s 108) = Ok 2.
Proof. vm_compute. reflexivity. Qed.

(** The empty pattern occurs in the empty string at 0; the engine answers -1. *)
Theorem C09_empty_in_empty_refuted :
  forall s t, srep s [] -> srep t [] -> zs_indexOf s t = Ok (-1) /\ occurs_at [] [] 0.
Proof.
  intros s t R Rt. split; [|exists [], []; auto]. unfold zs_indexOf. eapply find_out; eauto. rewrite zlen_nil. lia.
Qed.
Print Assumptions C09_empty_in_empty_refuted.

(** ** C10: the start position of find *)
Theorem C10_start_beyond_end :
  forall s l t p pos, srep s l -> srep t p -> zlen l <= pos -> s_find s t pos = Ok (-1).
Proof. exact find_out. Qed.
Print Assumptions C10_start_beyond_end.

(** Inside the string the start position has no influence at all. *)
Theorem C10_start_position_ignored_refuted :
  forall s l t p pos, srep s l -> srep t p -> 0 <= pos < zlen l -> s_find s t pos = s_find s t 0.
Proof.
  intros s l t p pos R Rt H. rewrite (find_ok s l t p pos R Rt H). symmetry. apply find_ok; auto. lia.
Qed.
Print Assumptions C10_start_position_ignored_refuted.
Example C10_case_refuted :
  (do s <- s_lit [97; 98; 97]; do p <- s_lit [97]; s_find s p 2) = Ok 0.
Proof. vm_compute. reflexivity. Qed.

(** ** C11, C12: split *)
Theorem C11_split_char_join :
  forall s l d, srep s l -> d <> 0 ->
  exists ts ls, s_split_char s d = Ok ts /\ Forall2 shows ts ls /\ ls <> [] /\
    join [d] ls = l /\ Forall (fun x => ~ In d x) ls.
Proof.
  intros s l d R Hd. destruct (split_char_ok s l d Hd R) as (ts & ls & E & F & H).
  exists ts, ls. split; auto. split; auto. clear -F. induction F; constructor; auto using rep_shows.
Qed.
Print Assumptions C11_split_char_join.
Example C11_case :
  (do s <- s_lit [44; 97; 44; 44; 98]; do ts <- s_split_char s 44; Ok (map (fun t => cstr (cchars t) 0) ts))
  = Ok [Some []; Some [97]; Some []; Some [98]] /\
  join [44] [[]; [97]; []; [98]] = [44; 97; 44; 44; 98].
Proof. split; vm_compute; reflexivity. Qed.

(** Splitting at the NUL character never returns pieces: strchr finds the terminator and
    the loop continues behind it, which throws or leaves the buffer. *)
Theorem C11_split_nul_refuted :
  forall s l, srep s l -> s_split_char s 0 = Thr \/ s_split_char s 0 = UB.
Proof.
  intros s l R. enough (G : match s_split_char s 0 with Thr | UB => True | _ => False end).
  { destruct (s_split_char s 0); auto; contradiction. }
  unfold s_split_char. rewrite (sr_count _ _ R), to_nat_zlen. pose proof (zlen_nonneg l) as Hl.
  cbn [split_loop]. unfold c_strchr at 1. rewrite (cstr_cchars s l R). cbn [Z.eqb ofo rbind].
  rewrite Z.add_0_l, Z.sub_0_r. pose proof (getSub_ok s [] l []) as W. rewrite app_nil_r in W.
  destruct (W R) as (r & Er & _). rewrite zlen_nil in Er. rewrite Er. cbn [rbind]. clear W.
  unfold c_strchr at 1. destruct (cstr (cchars s) (zlen l + 1)) as [m|]; [|exact I].
  cbn [Z.eqb ofo rbind]. pose proof (zlen_nonneg m).
  rewrite (getSub_throw s l (zlen l + 1)); [exact I|auto|lia|lia].
Qed.
Print Assumptions C11_split_nul_refuted.

Theorem C12_split_string_join :
  forall s l t d, srep s l -> srep t d -> d <> [] ->
  exists ts ls, (forall fuel, (length l < fuel)%nat -> s_split fuel s t = Ok ts) /\
    Forall2 shows ts ls /\ ls <> [] /\ join d ls = l /\ Forall (fun x => ~ occurs d x) ls /\ tokens d l ls.
Proof.
  intros s l t d R Rt Hd. destruct (s_copy_ok s l R) as (c & Ec & Rc & _).
  destruct (split_str_loop_ok t d Rt Hd (length l) c l (le_n _) Rc (S (length l)) (Nat.lt_succ_diag_r _)) as (ts & ls & E & F & T).
  exists ts, ls. destruct (tokens_join d l ls T) as [J N]. repeat split; auto.
  - intros fuel Hf. unfold s_split. rewrite Ec. cbn [rbind]. rewrite <- E.
    assert (Mono : forall f g s0 x, split_str_loop f s0 t = Ok x -> (f <= g)%nat -> split_str_loop g s0 t = Ok x).
    { clear. intros f; induction f as [|f IH]; intros g s0 x H Hg; [discriminate|]. destruct g as [|g]; [lia|].
      cbn [split_str_loop] in *. destruct (s_find s0 t 0) as [k| | |]; cbn [rbind] in *; try discriminate.
      destruct (k =? -1); auto. destruct (s_getSubstring s0 0 k); cbn [rbind] in *; try discriminate.
      destruct (s_erase s0 0 (k + scount t)) as [s1| | |]; cbn [rbind] in *; try discriminate.
      destruct (split_str_loop f s1 t) eqn:E; cbn [rbind] in *; try discriminate.
      rewrite (IH g s1 _ E) by lia. exact H. }
    rewrite E. apply Mono with (f := S (length l)); auto.
  - clear -F. induction F; constructor; auto using rep_shows.
  - now apply tokens_free with (l := l).
Qed.
Print Assumptions C12_split_string_join.
Example C12_case :
  (do s <- s_lit [97; 58; 58; 98; 58; 58]; do t <- s_lit [58; 58];
   do ts <- s_split 9 s t; Ok (map (fun t => cstr (cchars t) 0) ts)) = Ok [Some [97]; Some [98]; Some []].
Proof. vm_compute. reflexivity. Qed.

(** With the empty delimiter, split never returns on a non-empty string. *)
Theorem C12_empty_delimiter_diverges_refuted :
  forall s l t, srep s l -> srep t [] -> l <> [] -> forall fuel, s_split fuel s t = Loop.
Proof.
  intros s l t R Rt Hl fuel. unfold s_split. destruct (s_copy_ok s l R) as (c & Ec & Rc & _). rewrite Ec. cbn [rbind].
  now apply (split_empty_loops t Rt fuel c l).
Qed.
Print Assumptions C12_empty_delimiter_diverges_refuted.

(** ** C13 *)
Theorem C13_startsWith_prefix :
  forall s l t p, srep s l -> srep t p ->
  exists r, s_startsWith s t = Ok r /\ (r = true <-> exists b, l = p ++ b).
Proof.
  intros s l t p R Rt. exists (is_prefix p l). split; [now apply startsWith_ok|apply is_prefix_spec].
Qed.
Print Assumptions C13_startsWith_prefix.
Theorem C13_endsWith_suffix :
  forall s l t p, srep s l -> srep t p ->
  exists r, s_endsWith s t = Ok r /\ (r = true <-> exists a, l = a ++ p).
Proof. exact endsWith_ok. Qed.
Print Assumptions C13_endsWith_suffix.
Theorem C13_contains_substring :
  forall s l t p, srep s l -> srep t p -> (l = [] -> p <> []) ->
  exists r, zs_contains s t = Ok r /\ (r = true <-> exists a b, l = a ++ p ++ b).
Proof.
  intros s l t p R Rt H. unfold zs_contains, s_contains.
  destruct (s_copy_ok s l R) as (c & -> & Rc & _). cbn [rbind].
  destruct (s_copy_ok t p Rt) as (c' & -> & Rc' & _). cbn [rbind].
  destruct (find_spec c l c' p Rc Rc' H) as (k & -> & S). cbn [rbind]. eexists. split; [reflexivity|].
  destruct S as [(-> & Hno)|(H0 & O & _)].
  - split; [discriminate|]. intros (a & b & E). exfalso. apply Hno. exists (length a), a, b. auto.
  - destruct (Z.eqb_spec k (-1)); [lia|]. split; auto. intros _. destruct O as (a & b & E & _). eauto.
Qed.
Print Assumptions C13_contains_substring.
Theorem C13_contains_empty_refuted :
  forall s t, srep s [] -> srep t [] -> zs_contains s t = Ok false.
Proof.
  intros s t R Rt. unfold zs_contains, s_contains.
  destruct (s_copy_ok s [] R) as (c & -> & Rc & _). cbn [rbind].
  destruct (s_copy_ok t [] Rt) as (c' & -> & Rc' & _). cbn [rbind].
  rewrite (find_out c [] c' [] 0 Rc Rc'); [reflexivity|rewrite zlen_nil; lia].
Qed.
Print Assumptions C13_contains_empty_refuted.
Theorem C13_contains_char :
  forall s l c, srep s l -> 0 < c < 256 ->
  exists r, zs_contains_char s c = Ok r /\ (r = true <-> In c l).
Proof.
  intros s l c R Hc. unfold zs_contains_char, c_strchr. rewrite (cstr_cchars s l R), Z.mod_small by lia.
  destruct (Z.eqb_spec c 0); [lia|]. cbn [ofo rbind]. eexists. split; [reflexivity|].
  destruct (index_of c l) as [k|] eqn:E; cbn [option_map].
  - split; auto. intros _. apply index_of_split in E. destruct E as (a & b & -> & _). apply in_or_app. simpl; auto.
  - split; [discriminate|]. intros H. now apply index_of_none in E.
Qed.
Print Assumptions C13_contains_char.
Example C13_case :
  (do s <- s_lit [97; 98; 99]; do p <- s_lit [97; 98]; s_startsWith s p) = Ok true /\
  (do s <- s_lit [97; 98; 99]; do p <- s_lit [97; 98]; s_endsWith s p) = Ok false /\
  (do s <- s_lit [97; 98; 99]; do p <- s_lit [98]; zs_contains s p) = Ok true.
Proof. repeat split; vm_compute; reflexivity. Qed.

(** ** C14: substring *)
Lemma to_int_id n : -2147483648 <= n < 2147483648 -> to_int n = n.
Proof. intros H. unfold to_int. rewrite Z.mod_small by lia. lia. Qed.

Theorem C14_substring_slice :
  forall s l i j, srep s l -> zlen l < 2147483648 ->
  if i <? 0 then zs_substring s i j = Thr
  else exists r m, zs_substring s i j = Ok r /\ shows r m /\
    let j' := Z.min (if j <? 0 then zlen l + j else j) (zlen l - 1) in
    (i <= j' -> slice l i j' m) /\ (j' < i -> m = []).
Proof.
  intros s l i j R Hl. unfold zs_substring. destruct (Z.ltb_spec i 0) as [Hi|Hi]; auto.
  rewrite (sr_count _ _ R). set (j1 := if j <? 0 then zlen l + j else j).
  assert (Ej : (if zlen l <=? j1 then zlen l - 1 else j1) = Z.min j1 (zlen l - 1)).
  { destruct (Z.leb_spec (zlen l) j1); lia. }
  rewrite Ej. set (j' := Z.min j1 (zlen l - 1)). destruct (Z.leb_spec i j').
  - rewrite !to_int_id by lia.
    destruct (split3 l i (j' - i + 1)) as (a & m & b & E & Ha & Hm & _ & _); try lia.
    rewrite E in R. destruct (getSub_ok s a m b R) as (r & Er & Rr & _). rewrite Ha, Hm in Er. rewrite Er. cbn [rbind].
    destruct (s_copy_ok r m Rr) as (r' & Ec & Rc & _). exists r', m. rewrite Ec. split; auto.
    split; [now apply rep_shows|]. split; [|lia]. intros _. unfold slice. unfold zlen in *. split; [lia|].
    intros k Hk. rewrite E. rewrite nth_error_app2 by lia. rewrite nth_error_app1 by lia. f_equal. lia.
  - destruct (s_lit_ok [] nonul_nil) as (e & -> & Re & _). cbn [rbind].
    destruct (s_copy_ok e [] Re) as (r' & Ec & Rc & _). exists r', []. rewrite Ec. split; auto.
    split; [now apply rep_shows|]. split; [lia|auto].
Qed.
Print Assumptions C14_substring_slice.
Example C14_case :
  (do s <- s_lit [97; 98; 99; 100; 101]; do r <- zs_substring s 1 (-2); Ok (cstr (cchars r) 0)) = Ok (Some [98; 99; 100]) /\
  (do s <- s_lit [97; 98; 99]; do r <- zs_substring s 2 99; Ok (cstr (cchars r) 0)) = Ok (Some [99]) /\
  (do s <- s_lit [97; 98; 99]; do r <- zs_substring s 2 1; Ok (cstr (cchars r) 0)) = Ok (Some []).
Proof. repeat split; vm_compute; reflexivity. Qed.

(** ** C15: replace *)

(** Guard: either nothing is replaced or the resulting text is not empty. *)
Theorem C15_replace_all :
  forall s l so old sn new, srep s l -> srep so old -> srep sn new -> old <> [] ->
  exists r, replaced old new l r /\
   (r <> [] -> exists s', (forall fuel, (length l < fuel)%nat -> s_replace fuel s so sn = Ok s') /\ shows s' r).
Proof.
  intros s l so old sn new R Ro Rn Ho.
  destruct (replaced_exists old new Ho (length l) l (le_n _)) as [r Hr]. exists r. split; auto. intros Hne.
  destruct (s_copy_ok s l R) as (c & Ec & Rc & _).
  pose proof (replace_loop_ok so old sn new Ro Rn Ho (length l) l [] c r (le_n _) Rc Hr Hne) as W.
  rewrite zlen_nil in W. cbn [app] in W.
  destruct (W (S (length l)) (Nat.lt_succ_diag_r _)) as (s' & E & Rs). exists s'. split; [|now apply rep_shows].
  intros fuel Hf. unfold s_replace. rewrite Ec. cbn [rbind].
  assert (Mono : forall f g s0 x i, replace_loop f s0 so sn i = Ok x -> (f <= g)%nat -> replace_loop g s0 so sn i = Ok x).
  { clear. intros f; induction f as [|f IH]; intros g s0 x i H Hg; [discriminate|]. destruct g as [|g]; [lia|].
    cbn [replace_loop] in *. destruct (ofo (c_strstr (cchars s0) i (cchars so))) as [[p|]| | |]; cbn [rbind] in *; try discriminate; auto.
    destruct (s_setSubstring s0 p (scount so) sn) as [s1| | |]; cbn [rbind] in *; try discriminate.
    apply IH; auto. lia. }
  apply Mono with (f := S (length l)); auto.
Qed.
Print Assumptions C15_replace_all.
Example C15_case :
  (do s <- s_lit [97; 98; 97; 98]; do o <- s_lit [98]; do n <- s_lit [98; 98]; do r <- s_replace 9 s o n; Ok (cstr (cchars r) 0))
  = Ok (Some [97; 98; 98; 97; 98; 98]) /\ replaced [98] [98; 98] [97; 98; 97; 98] [97; 98; 98; 97; 98; 98].
Proof.
  split; [vm_compute; reflexivity|].
  apply (rp_first [98] [98; 98] [97] [97; 98] [97; 98; 98]).
  - intros i Hi. simpl in Hi. assert (i = 0)%nat by lia. subst. intros (a & b & E & Hl). destruct a; [|discriminate]. discriminate.
  - apply (rp_first [98] [98; 98] [97] [] []).
    + intros i Hi. simpl in Hi. assert (i = 0)%nat by lia. subst. intros (a & b & E & Hl). destruct a; [|discriminate]. discriminate.
    + constructor. intros [i (a & b & E & _)]. destruct a; discriminate.
Qed.

(** When every character is to be removed, the call throws instead of returning "". *)
Theorem C15_replace_to_empty_refuted :
  forall s l so old sn, srep s l -> srep so old -> srep sn [] -> old <> [] -> l <> [] ->
  replaced old [] l [] -> forall fuel, (length l < fuel)%nat -> s_replace fuel s so sn = Thr.
Proof.
  intros s l so old sn R Ro Rn Ho Hl HR fuel Hf. unfold s_replace.
  destruct (s_copy_ok s l R) as (c & -> & Rc & _). cbn [rbind].
  now apply (replace_loop_throws so old sn Ro Rn Ho (length l) l c (le_n _) Rc).
Qed.
Print Assumptions C15_replace_to_empty_refuted.
Example C15_refuted_case :
  replaced [97] [] [97; 97] [] /\
  (do s <- s_lit [97; 97]; do o <- s_lit [97]; do n <- s_lit []; s_replace 9 s o n) = Thr.
Proof.
  split; [|vm_compute; reflexivity].
  apply (rp_first [97] [] [] [97] []); [intros i Hi; simpl in Hi; lia|].
  apply (rp_first [97] [] [] [] []); [intros i Hi; simpl in Hi; lia|].
  constructor. intros [i (a & b & E & _)]. destruct a; discriminate.
Qed.

(** ** C16: case conversion *)
Definition lower_spec (c d : Z) : Prop := (is_upper c -> d = c + 32) /\ (~ is_upper c -> d = c).
Definition upper_spec (c d : Z) : Prop := (is_lower c -> d = c - 32) /\ (~ is_lower c -> d = c).

Theorem C16_toLowerCase_partial :
  forall s l, srep s l -> zlen l <= 32767 ->
  exists r m, s_toLower s = Ok r /\ srep r m /\ shows r m /\ Forall2 lower_spec l m.
Proof.
  intros s l R Hl. destruct (case_ok lower s l lower_nz R Hl) as (r & E & Rr).
  exists r, (map lower l). split; auto. split; auto. split; [now apply rep_shows|]. clear.
  induction l; cbn [map]; constructor; auto. unfold lower_spec, is_upper, lower.
  destruct (Z.leb_spec 65 a), (Z.leb_spec a 90); cbn [andb]; split; intros; lia.
Qed.
Print Assumptions C16_toLowerCase_partial.
Theorem C16_toUpperCase_partial :
  forall s l, srep s l -> zlen l <= 32767 ->
  exists r m, s_toUpper s = Ok r /\ srep r m /\ shows r m /\ Forall2 upper_spec l m.
Proof.
  intros s l R Hl. destruct (case_ok upper s l upper_nz R Hl) as (r & E & Rr).
  exists r, (map upper l). split; auto. split; auto. split; [now apply rep_shows|]. clear.
  induction l; cbn [map]; constructor; auto. unfold upper_spec, is_lower, upper.
  destruct (Z.leb_spec 97 a), (Z.leb_spec a 122); cbn [andb]; split; intros; lia.
Qed.
Print Assumptions C16_toUpperCase_partial.
Lemma lower_idem c : lower (lower c) = lower c.
Proof.
  unfold lower. destruct (Z.leb_spec 65 c), (Z.leb_spec c 90); cbn [andb];
  repeat match goal with |- context [Z.leb ?x ?y] => destruct (Z.leb_spec x y) end; cbn [andb]; lia.
Qed.
Lemma upper_idem c : upper (upper c) = upper c.
Proof.
  unfold upper. destruct (Z.leb_spec 97 c), (Z.leb_spec c 122); cbn [andb];
  repeat match goal with |- context [Z.leb ?x ?y] => destruct (Z.leb_spec x y) end; cbn [andb]; lia.
Qed.
Theorem C16_idempotent_partial :
  forall s l, srep s l -> zlen l <= 32767 ->
  (exists r r' m, s_toLower s = Ok r /\ s_toLower r = Ok r' /\ shows r m /\ shows r' m) /\
  (exists r r' m, s_toUpper s = Ok r /\ s_toUpper r = Ok r' /\ shows r m /\ shows r' m).
Proof.
  intros s l R Hl. split.
  - destruct (case_ok lower s l lower_nz R Hl) as (r & E & Rr).
    destruct (case_ok lower r _ lower_nz Rr) as (r' & E' & Rr'); [unfold zlen in *; now rewrite map_length|].
    rewrite map_map, (map_ext _ lower lower_idem) in Rr'.
    exists r, r', (map lower l). auto using rep_shows.
  - destruct (case_ok upper s l upper_nz R Hl) as (r & E & Rr).
    destruct (case_ok upper r _ upper_nz Rr) as (r' & E' & Rr'); [unfold zlen in *; now rewrite map_length|].
    rewrite map_map, (map_ext _ upper upper_idem) in Rr'.
    exists r, r', (map upper l). auto using rep_shows.
Qed.
Print Assumptions C16_idempotent_partial.
Example C16_case :
  (do s <- s_lit [65; 98; 90; 91; 64; 122]; do r <- s_toLower s; Ok (cstr (cchars r) 0)) = Ok (Some [97; 98; 122; 91; 64; 122]) /\
  (do s <- s_lit [65; 98; 90; 91; 64; 122]; do r <- s_toUpper s; Ok (cstr (cchars r) 0)) = Ok (Some [65; 66; 90; 91; 64; 90]).
Proof. split; vm_compute; reflexivity. Qed.

(** Every string of at least 32768 characters makes both conversions throw. *)
Theorem C16_long_strings_throw_refuted :
  forall s l, srep s l -> 32768 <= zlen l -> s_toLower s = Thr /\ s_toUpper s = Thr.
Proof.
  intros s l R Hl. split; [apply (case_long lower s l lower_nz R Hl)|apply (case_long upper s l upper_nz R Hl)].
Qed.
Print Assumptions C16_long_strings_throw_refuted.
(** Such a string exists. *)
Theorem C16_long_string_exists :
  exists s, s_lit (repeat 97 (Z.to_nat 32768)) = Ok s /\ s_toLower s = Thr.
Proof.
  assert (Hn : nonul (repeat 97 (Z.to_nat 32768))).
  { apply Forall_forall. intros x Hx. apply repeat_spec in Hx. lia. }
  destruct (s_lit_ok _ Hn) as (s & E & R & _). exists s. split; [exact E|].
  apply (C16_long_strings_throw_refuted s _ R). unfold zlen. rewrite repeat_length. lia.
Qed.
Print Assumptions C16_long_string_exists.

(** ** C17: unescape *)
Theorem C17_unescape_inverts_escape :
  forall s l, nonul l -> srep s (escape l) -> exists r, s_unescape s = Ok r /\ srep r l /\ shows r l.
Proof.
  intros s l Hn R. destruct (unescape_ok s _ R) as (r & E & Rr). rewrite unesc_escape in Rr by lia.
  exists r. auto using rep_shows.
Qed.
Print Assumptions C17_unescape_inverts_escape.
Example C17_case :
  escape [97; 10; 92; 34; 9; 39; 98] = [97; 92; 110; 92; 92; 92; 34; 92; 116; 92; 39; 98] /\
  (do s <- s_lit (escape [97; 10; 92; 34; 9; 39; 98]); do r <- s_unescape s; Ok (cstr (cchars r) 0))
  = Ok (Some [97; 10; 92; 34; 9; 39; 98]).
Proof. split; vm_compute; reflexivity. Qed.
(** Unescape is defined on every string, never lengthens it, and leaves text without
    backslashes alone. *)
Theorem C17_unescape_total :
  forall s l, srep s l -> exists r m, s_unescape s = Ok r /\ srep r m /\ shows r m /\
    (~ In 92 l -> m = l) /\ zlen m <= zlen l.
Proof.
  intros s l R. destruct (unescape_ok s l R) as (r & E & Rr). exists r, (unesc (S (length l)) l).
  split; auto. split; auto. split; [now apply rep_shows|].
  assert (G : forall n x, (length x <= n)%nat -> (~ In 92 x -> unesc n x = x) /\ (length (unesc n x) <= length x)%nat).
  { clear. intros n; induction n as [|n IH]; intros x Hx.
    - destruct x; [auto|cbn in Hx; lia].
    - destruct x as [|c x]; [auto|]. destruct x as [|e x]; [auto|]. cbn [unesc].
      destruct (IH x) as [A1 A2]; [cbn in *; lia|]. destruct (IH (e :: x)) as [B1 B2]; [cbn in *; lia|].
      destruct (Z.eqb_spec c 92) as [->|Hc].
      + split; [intros H; exfalso; apply H; simpl; auto|]. rewrite app_length.
        repeat match goal with |- context [if ?b then _ else _] => destruct b end; cbn [length]; lia.
      + split; [intros H; rewrite B1; auto; intros H'; apply H; simpl in *; tauto|]. cbn [length] in *. lia. }
  destruct (G (S (length l)) l) as [G1 G2]; [lia|]. split; auto. unfold zlen. lia.
Qed.
Print Assumptions C17_unescape_total.

(** ** C18: insertAt and eraseAt of the script string *)
Theorem C18_insertAt_splice :
  forall s l t x i, srep s l -> srep t x -> zlen l < 2147483648 -> 0 <= i < 2147483648 ->
  if i <? zlen l
  then exists s', zs_insertAt s i t = Ok s' /\ srep s' (firstn (Z.to_nat i) l ++ x ++ skipn (Z.to_nat i) l)
  else zs_insertAt s i t = Thr.
Proof.
  intros s l t x i R Rt Hl Hi. unfold zs_insertAt. rewrite to_int_id by lia. destruct (Z.ltb_spec i (zlen l)).
  - destruct (split2 l i) as (a & b & -> & <- & -> & ->); [lia|]. apply insert_ok; auto.
    intros ->. rewrite app_nil_r in *. lia.
  - unfold s_insert. rewrite (sr_count _ _ R). destruct (Z.leb_spec (zlen l) i); auto. lia.
Qed.
Print Assumptions C18_insertAt_splice.
Theorem C18_insertAt_char_splice :
  forall s l c i, srep s l -> zlen l < 2147483648 -> 0 <= i < 2147483648 -> 0 < c < 256 ->
  if i <? zlen l
  then exists s', zs_insertAt_char s i c = Ok s' /\ srep s' (firstn (Z.to_nat i) l ++ c :: skipn (Z.to_nat i) l)
  else zs_insertAt_char s i c = Thr.
Proof.
  intros s l c i R Hl Hi Hc. unfold zs_insertAt_char. rewrite to_int_id, Z.mod_small by lia.
  destruct (Z.ltb_spec i (zlen l)).
  - destruct (split2 l i) as (a & b & -> & <- & -> & ->); [lia|]. apply insert_char_ok; auto; [|lia].
    intros ->. rewrite app_nil_r in *. lia.
  - unfold s_insert_char. rewrite (sr_count _ _ R). destruct (Z.leb_spec (zlen l) i); auto. lia.
Qed.
Print Assumptions C18_insertAt_char_splice.
Theorem C18_eraseAt_splice :
  forall s l i, srep s l -> zlen l < 2147483648 -> 0 <= i < 2147483648 ->
  if i <? zlen l
  then exists s', zs_eraseAt s i = Ok s' /\ srep s' (firstn (Z.to_nat i) l ++ skipn (Z.to_nat (i + 1)) l)
  else zs_eraseAt s i = Thr.
Proof.
  intros s l i R Hl Hi. unfold zs_eraseAt. rewrite to_int_id by lia. destruct (Z.ltb_spec i (zlen l)).
  - destruct (split3 l i 1) as (a & m & b & -> & <- & Hm & -> & ->); try lia.
    destruct (erase_ok s a m b R) as (s' & E & R' & _).
    { intros Hnil. apply app_eq_nil in Hnil. destruct Hnil as [-> _]. rewrite zlen_nil in Hm. lia. }
    rewrite Hm in E. eauto.
  - unfold s_erase. rewrite (sr_count _ _ R). destruct (Z.leb_spec (zlen l) i); auto. lia.
Qed.
Print Assumptions C18_eraseAt_splice.
Example C18_case :
  (do s <- s_lit [97; 98; 99]; do t <- s_lit [120; 121]; do r <- zs_insertAt s 1 t; Ok (cstr (cchars r) 0))
    = Ok (Some [97; 120; 121; 98; 99]) /\
  (do s <- s_lit [97; 98; 99]; do r <- zs_eraseAt s 1; Ok (cstr (cchars r) 0)) = Ok (Some [97; 99]) /\
  (do s <- s_lit [97; 98; 99]; do r <- zs_eraseAt s 3; Ok (cstr (cchars r) 0)) = Thr.
Proof. repeat split; vm_compute; reflexivity. Qed.

(** Negative positions are not rejected: memory before the buffer is accessed. *)
Theorem C18_negative_position_refuted :
  forall s l t x i, srep s l -> srep t x -> -2147483648 <= i < 0 ->
  zs_insertAt s i t = UB /\ (l <> [] -> i = -1 -> zs_eraseAt s i = UB) /\
  (l = [] -> i = -1 -> exists s', zs_eraseAt s i = Ok s' /\ scount s' = -1).
Proof.
  intros s l t x i R Rt Hi. unfold zs_insertAt, zs_eraseAt. rewrite to_int_id by lia.
  pose proof (zlen_nonneg l). split; [|split].
  - unfold s_insert. rewrite (sr_count _ _ R). destruct (Z.leb_spec (zlen l) i); [lia|].
    destruct (Z.ltb_spec 0 i); [lia|]. cbn [rbind]. unfold c_strcat, c_strlen, cstr.
    destruct (Z.leb_spec 0 i); [lia|]. reflexivity.
  - intros Hl ->. assert (zlen l <> 0) by (intros E; apply zlen_0 in E; auto).
    unfold s_erase. rewrite (sr_count _ _ R). destruct (Z.leb_spec (zlen l) (-1)); [lia|].
    destruct (Z.ltb_spec (zlen l) (-1 + 1)); [lia|]. cbn [Z.ltb Z.compare rbind]. unfold c_memcpy.
    destruct (Z.eqb_spec (zlen l - 1 - -1) 0); [lia|]. destruct (readn _ _ _); [|reflexivity].
    unfold splice. reflexivity.
  - intros -> ->. unfold s_erase. rewrite (sr_count _ _ R). cbn. eexists. split; reflexivity.
Qed.
Print Assumptions C18_negative_position_refuted.

(** Positions are cut to 32 bits: 2^32 acts like 0. *)
Theorem C18_position_truncated_refuted :
  forall s l t x i, srep s l -> srep t x -> 0 <= i < zlen l -> zlen l < 2147483648 ->
  zs_insertAt s (i + 4294967296) t = zs_insertAt s i t /\ zs_eraseAt s (i + 4294967296) = zs_eraseAt s i.
Proof.
  intros. unfold zs_insertAt, zs_eraseAt. replace (to_int (i + 4294967296)) with (to_int i); auto.
  unfold to_int. replace (i + 4294967296 + 2147483648) with (i + 2147483648 + 1 * 4294967296) by lia.
  now rewrite Z.mod_add by lia.
Qed.
Print Assumptions C18_position_truncated_refuted.

(** ** C68: findLastOf *)

(** On a non-empty string, the last position whose character belongs to the set. *)
Theorem C68_findLastOf_last :
  forall s l t p, srep s l -> srep t p -> l <> [] ->
  exists k, s_findLastOf s t (-1) = Ok k /\
   ((k = -1 /\ forall y, In y l -> ~ In y p) \/
    (exists u y v, l = u ++ y :: v /\ k = zlen u /\ In y p /\ forall z, In z v -> ~ In z p)).
Proof.
  intros s l t p R Rt Hl. unfold s_findLastOf. rewrite (strlen_cchars t p Rt). cbn [ofo rbind]. rewrite Z.eqb_refl.
  destruct (exists_last Hl) as (a & x & ->). rewrite (sr_count _ _ R), zlen_app. change (zlen [x]) with 1.
  pose proof (zlen_nonneg a). destruct (Z.ltb_spec (zlen a + 1 - 1) (zlen a + 1)); [|lia].
  rewrite Z.min_id. replace (zlen a + 1 - 1) with (zlen a) by lia.
  destruct (cchars_rep t p Rt) as (k & _ & ->).
  apply (last_loop_ok s p (0 :: zeros k) a x []); auto. unfold zlen. lia.
Qed.
Print Assumptions C68_findLastOf_last.
Example C68_case : (do s <- s_lit [97; 47; 98; 92; 99]; do p <- s_lit [47; 92]; s_findLastOf s p (-1)) = Ok 3.
Proof. vm_compute. reflexivity. Qed.

(** On the empty string it reads the byte before the buffer. *)
Theorem C68_findLastOf_empty_refuted :
  forall s t p, srep s [] -> srep t p -> s_findLastOf s t (-1) = UB.
Proof.
  intros s t p R Rt. unfold s_findLastOf. rewrite (strlen_cchars t p Rt). cbn [ofo rbind Z.eqb].
  rewrite (sr_count _ _ R), zlen_nil. reflexivity.
Qed.
Print Assumptions C68_findLastOf_empty_refuted.
