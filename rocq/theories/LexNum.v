(** Proofs about numeric literals. *)
From Coq Require Import List ZArith Bool Lia String.
From Verif Require Import Base StringModel LexModel LexSpec LexProofs LexOps LexTok.
Import ListNotations.
Local Open Scope Z_scope.

Definition text (n : num) : list Z := n0 n ++ n1 n ++ n2 n.

(** The end of the loop's body. *)
Definition after (f : nat) (hexa : bool) (n : num) (s : ptr) : res (num * ptr) :=
  do e1 <- is_end_symbol_token s 0;
  do stop <- (if e1 then Ok true else is_special_char s);
  do c2 <- peek 0 s;
  if stop && negb (c2 =? 46) then Ok (n, s) else num_loop f hexa n s.

Lemma num_loop_eq : forall f h n s, num_loop (S f) h n s =
  do e <- exponent n s;
  let '(n1, s1) := e in
  do c <- peek 0 s1;
  do d <- digit h n1 c;
  let '(n2, fin) := d in
  if (fin : bool) then Ok (n2, adv 1 s1) else after f h n2 (adv 1 s1).
Proof. reflexivity. Qed.

Lemma special_ender : incl special ender.
Proof. apply inclb. reflexivity. Qed.

Lemma after_stop : forall f h n s, ends_token s -> hd 0 s <> 46 -> after f h n s = Ok (n, s).
Proof.
  intros f h n s E N. unfold after. destruct (end_spec0 s) as (b & -> & B). cbn [rbind].
  apply B in E. subst b. cbn [rbind]. rewrite peek0. unfold hd0. cbn [rbind andb].
  rewrite (proj2 (Z.eqb_neq _ _) N). reflexivity.
Qed.
Lemma after_go : forall f h n s, ~ ends_token s \/ hd 0 s = 46 -> after f h n s = num_loop f h n s.
Proof.
  intros f h n s E. unfold after. destruct (end_spec0 s) as (b & -> & B). cbn [rbind].
  destruct E as [E|E].
  - destruct b; [exfalso; apply E, B; reflexivity|]. unfold is_special_char. rewrite peek0. unfold hd0. cbn [rbind]. fold special.
    destruct (existsb (Z.eqb (hd 0 s)) special) eqn:S.
    + exfalso. apply E. left. apply special_ender. apply existsb_In. exact S.
    + reflexivity.
  - assert (X : exists st, (if b then Ok true else is_special_char s) = Ok st).
    { destruct b; [eauto|]. unfold is_special_char. rewrite peek0. cbn [rbind]. eauto. }
    destruct X as [st ->]. cbn [rbind]. rewrite peek0. unfold hd0. rewrite E. cbn [rbind].
    change (46 =? 46) with true. rewrite andb_false_r. reflexivity.
Qed.
Lemma after_inv : forall f h n s r, after f h n s = r ->
  (r = Ok (n, s) /\ ends_token s /\ hd 0 s <> 46) \/ r = num_loop f h n s.
Proof.
  intros f h n s r <-. destruct (end_spec0 s) as (b & E & B).
  destruct (Z.eq_dec (hd 0 s) 46) as [D|D]; [right; apply after_go; auto|].
  destruct b.
  - left. assert (ends_token s) by tauto. split; [apply after_stop; auto | auto].
  - right. apply after_go. left. intros K. apply B in K. discriminate.
Qed.

(** ** What has been read is the beginning of a number *)
Definition bin (c : Z) : bool := (c =? 48) || (c =? 49).
Definition inv (h : bool) (n : num) : Prop :=
  if h then
    part n = 0 /\ (exists c a, n0 n = 48 :: c :: a /\ (c = 88 \/ c = 120) /\ all hex_digit a) /\
    n1 n = [] /\ n2 n = [] /\ is_float n = false
  else
    (part n = 0 /\ all is_digit (n0 n) /\ n1 n = [] /\ n2 n = [] /\ is_float n = false /\
       (is01s n = true -> all bin (n0 n))) \/
    (part n = 1 /\ all is_digit (n0 n) /\ (exists b, n1 n = 46 :: b /\ all is_digit b) /\ n2 n = [] /\ is_float n = true) \/
    (part n = 2 /\ all is_digit (n0 n) /\
       (exists b, n1 n = 46 :: b /\ all is_digit b /\ b <> []) /\
       (exists e sg x, n2 n = e :: sg ++ x /\ (e = 101 \/ e = 69) /\ (sg = [] \/ sg = [43] \/ sg = [45]) /\ all is_digit x)
       /\ is_float n = true).

Lemma all_snoc : forall f l c, all f l -> f c = true -> all f (l ++ [c]).
Proof. intros. apply Forall_app. split; [assumption | constructor; [assumption | constructor]]. Qed.

Lemma snoc_ne : forall (l : list Z) c, l ++ [c] <> [].
Proof. intros [|] ? ?; discriminate. Qed.

(** One digit, in each part. *)
Lemma put_digit : forall h n c, inv h n -> (if h then hex_digit c else is_digit c) = true ->
  let m := and01 (put n c) c in
  inv h m /\ (decimal (text m) \/ hexadecimal (text m)) /\ text m = text n ++ [c] /\ (part m = 0 -> n0 m <> []).
Proof.
  intros [|] n c H D m; unfold m; clear m; destruct n as [p a b x o fl]; unfold inv, text, and01, put in *; cbn in *.
  - destruct H as (-> & (c0 & d & -> & C & A) & -> & -> & ->). cbn. repeat split.
    + exists c0, (d ++ [c]). split; [reflexivity|]. split; [exact C | apply all_snoc; auto].
    + right. change (hexadecimal (48 :: c0 :: (d ++ [c]) ++ [])). rewrite app_nil_r.
      constructor; [exact C | apply all_snoc; auto | apply snoc_ne].
    + rewrite !app_nil_r. reflexivity.
    + discriminate.
  - destruct H as [(-> & A & -> & -> & -> & B)|[(-> & A & (b' & -> & B) & -> & ->)|(-> & A & (b' & -> & B & NB) & (e & sg & y & -> & E & SG & Y) & ->)]]; cbn.
    + split; [left; repeat split; auto|].
      { apply all_snoc; auto. }
      { intros K. apply andb_true_iff in K. destruct K as [K1 K2]. apply all_snoc; [auto | exact K2]. }
      split; [left; rewrite app_nil_r; apply d_int; [apply all_snoc; auto | apply snoc_ne]|].
      split; [rewrite !app_nil_r; reflexivity | intros _; apply snoc_ne].
    + split; [right; left; repeat split; auto; exists (b' ++ [c]); split; [reflexivity | apply all_snoc; auto]|].
      split; [left; apply d_frac; [auto | rewrite app_nil_r; apply all_snoc; auto]|].
      split; [rewrite !app_nil_r, <- !app_assoc; reflexivity | discriminate].
    + split; [right; right; repeat split; eauto; exists e, sg, (y ++ [c]); rewrite <- app_assoc; repeat split; auto; apply all_snoc; auto|].
      split; [left; rewrite <- app_assoc; apply d_exp; auto; [apply all_snoc; auto | apply snoc_ne]|].
      split; [|discriminate]. rewrite <- !app_assoc. cbn [app]. rewrite <- !app_assoc. cbn [app]. rewrite <- !app_assoc. reflexivity.
Qed.

Lemma exponent_step : forall h n s m s1, inv h n -> exponent n s = Ok (m, s1) ->
  inv h m /\ (exists w, s = w ++ s1 /\ text m = text n ++ w) /\ (part m = 0 -> m = n /\ s1 = s) .
Proof.
  intros h n s m s1 H E. unfold exponent in E. rewrite peek0 in E. cbn [rbind] in E.
  destruct (is_float n && ((hd0 s =? 101) || (hd0 s =? 69))) eqn:F.
  2:{ inversion E; subst. split; [exact H|]. split; [exists []; rewrite app_nil_r; auto | auto]. }
  apply andb_true_iff in F. destruct F as [F C].
  destruct ((part n =? 1) && (1 <? zlen (cur n))) eqn:P; [|discriminate].
  apply andb_true_iff in P. destruct P as [P L]. apply Z.eqb_eq in P. apply Z.ltb_lt in L.
  destruct s as [|c s]; [discriminate|]. cbn [hd0 hd] in C.
  assert (CE : c = 101 \/ c = 69) by (apply orb_true_iff in C; rewrite !Z.eqb_eq in C; exact C).
  destruct h; [unfold inv in H; destruct H as (H & _); congruence|].
  unfold inv in H. destruct H as [H|[H|H]]; try (destruct H as (H & _); congruence).
  destruct H as (_ & A & (b & B1 & B) & N2 & _).
  change (adv 1 (c :: s)) with s in E. rewrite peek0 in E. cbn [rbind] in E.
  assert (NB : b <> []).
  { intros ->. unfold cur in L. rewrite P in L. cbn [Z.eqb Pos.eqb] in L. rewrite B1 in L. cbn in L. lia. }
  destruct n as [p a b0 x o fl]. cbn in *. subst p b0 x fl.
  destruct ((hd0 s =? 43) || (hd0 s =? 45)) eqn:SG; inversion E; subst; clear E; cbn.
  - assert (CS : hd0 s = 43 \/ hd0 s = 45) by (apply orb_true_iff in SG; rewrite !Z.eqb_eq in SG; exact SG).
    destruct s as [|sg s]; [cbn in CS; destruct CS; discriminate|]. cbn [hd0 hd] in CS. cbn.
    split; [|split; [exists [c; sg]; split; [reflexivity|] | discriminate]].
    + right. right. unfold put, set_part. cbn. repeat split; eauto. exists c, [sg], []. repeat split; auto; [|constructor].
      destruct CS as [-> | ->]; auto.
    + unfold text, put, set_part. cbn. rewrite !app_nil_r, <- app_assoc. reflexivity.
  - split; [|split; [exists [c]; split; [reflexivity|] | discriminate]].
    + right. right. cbn. repeat split; eauto. exists c, [], []. repeat split; auto. constructor.
    + unfold text, put, set_part. cbn. rewrite !app_nil_r, <- app_assoc. reflexivity.
Qed.

Lemma loop_sound : forall f h n s m r, inv h n -> (part n = 0 -> n0 n = [] -> hd0 s <> 98) ->
  num_loop f h n s = Ok (m, r) ->
  exists w, s = w ++ r /\ text m = text n ++ w /\
    (((decimal (text m) \/ hexadecimal (text m)) /\ ends_token r /\ hd 0 r <> 46) \/ binary (text m)).
Proof.
  induction f as [|f IH]; intros h n s m r H FB E; [discriminate|].
  rewrite num_loop_eq in E.
  destruct (exponent n s) as [[n1' s1]| | |] eqn:EX; cbn [rbind] in E; try discriminate.
  destruct (exponent_step _ _ _ _ _ H EX) as (H1 & (w1 & -> & T1) & PZ).
  rewrite peek0 in E. cbn [rbind] in E.
  destruct (digit h n1' (hd0 s1)) as [[n2' fin]| | |] eqn:DG; cbn [rbind] in E; try discriminate.
  unfold digit in DG.
  assert (GO : forall c t, s1 = c :: t -> text n2' = text n1' ++ [c] ->
     inv h n2' -> (decimal (text n2') \/ hexadecimal (text n2')) -> (part n2' = 0 -> n0 n2' <> []) ->
     after f h n2' t = Ok (m, r) ->
     exists w, w1 ++ s1 = w ++ r /\ text m = text n ++ w /\
    (((decimal (text m) \/ hexadecimal (text m)) /\ ends_token r /\ hd 0 r <> 46) \/ binary (text m))).
  { intros c t -> T2 I2 G2 Z2 A. apply after_inv in A. destruct A as [(A & EN & ND)|A].
    - inversion A; subst. exists (w1 ++ [c]). rewrite <- !app_assoc. split; [reflexivity|]. split; [rewrite T2, T1, <- app_assoc; reflexivity|].
      left. auto.
    - symmetry in A. apply IH in A; [|exact I2 | intros P0 N0; exfalso; apply (Z2 P0 N0)].
      destruct A as (w & -> & T3 & R). exists (w1 ++ c :: w). rewrite <- app_assoc. split; [reflexivity|].
      split; [rewrite T3, T2, T1, <- !app_assoc; reflexivity | exact R]. }
  destruct s1 as [|c t].
  { cbn in DG. rewrite ?andb_false_r in DG. discriminate. }
  cbn [hd0 hd] in DG. change (adv 1 (c :: t)) with t in E.
  destruct (is_digit c) eqn:DC.
  { inversion DG; subst; clear DG.
    destruct (put_digit h n1' c H1) as (I2 & G2 & T2 & Z2).
    { destruct h; [unfold hex_digit; rewrite DC; reflexivity | exact DC]. }
    eapply GO; eauto. }
  destruct (is_hex_letter c && h) eqn:HC.
  { apply andb_true_iff in HC. destruct HC as [HC ->]. inversion DG; subst; clear DG.
    destruct (put_digit true n1' c H1) as (I2 & G2 & T2 & Z2).
    { unfold hex_digit. rewrite HC. apply orb_true_r. }
    eapply GO; eauto. }
  destruct (Z.eqb_spec c 46) as [->|N46].
  { destruct (negb h && (part n1' =? 0)) eqn:PH; [|discriminate].
    apply andb_true_iff in PH. destruct PH as [NH P0]. destruct h; [discriminate|]. apply Z.eqb_eq in P0.
    unfold inv in H1. destruct H1 as [H1|[H1|H1]]; try (destruct H1 as (H1 & _); congruence).
    destruct H1 as (_ & A & B1 & B2 & F & O). inversion DG; subst; clear DG.
    destruct n1' as [p a b x o fl]. cbn in *. subst p b x fl.
    eapply GO; [reflexivity | unfold text; cbn; rewrite !app_nil_r; reflexivity | | | | exact E].
    - right. left. cbn. repeat split; auto. exists []. split; [reflexivity | constructor].
    - left. unfold text. cbn. apply d_frac; [exact A | constructor].
    - cbn. discriminate. }
  destruct (Z.eqb_spec c 98) as [->|N98]; [|discriminate].
  destruct (negb (is01s n1') || negb (part n1' =? 0)) eqn:OK; [discriminate|].
  apply orb_false_iff in OK. destruct OK as [O P0]. apply negb_false_iff in O, P0. apply Z.eqb_eq in P0.
  inversion DG; subst; clear DG. inversion E; subst; clear E.
  destruct (PZ P0) as [-> E0]. assert (w1 = []).
  { apply (f_equal (@List.length Z)) in E0. rewrite app_length in E0. destruct w1; [reflexivity | cbn in E0; lia]. }
  subst w1. destruct h.
  { cbn in HC. discriminate. }
  unfold inv in H1. destruct H1 as [H1|[H1|H1]]; try (destruct H1 as (H1 & _); congruence).
  destruct H1 as (_ & A & B1 & B2 & F & O1). destruct n as [p a b x o fl]. cbn in *. subst p b x fl o.
  exists [98]. split; [reflexivity|]. split; [unfold text; cbn; rewrite !app_nil_r; reflexivity|].
  right. unfold text. cbn. rewrite app_nil_r. apply b_bin; [apply O1; reflexivity|].
  intros ->. apply (FB eq_refl eq_refl). reflexivity.
Qed.

(** ** Numbers are read *)
Definition puts (n : num) (ds : list Z) : num := fold_left (fun n c => and01 (put n c) c) ds n.

Lemma digit_not_ender : forall c t, hex_digit c = true -> ~ ends_token (c :: t).
Proof.
  intros c t D [K|[r K]].
  - assert (X : forallb (fun x => negb (hex_digit x)) ender = true) by reflexivity.
    rewrite forallb_forall in X. specialize (X c K). rewrite D in X. discriminate.
  - inversion K; subst. discriminate.
Qed.
Lemma digit_range : forall c, is_digit c = true <-> 48 <= c <= 57.
Proof. intros c. unfold is_digit, in_range. rewrite andb_true_iff, !Z.leb_le. tauto. Qed.
Lemma hex_range : forall c, is_hex_letter c = true <-> 97 <= c <= 102 \/ 65 <= c <= 70.
Proof. intros c. unfold is_hex_letter, in_range. rewrite orb_true_iff, !andb_true_iff, !Z.leb_le. tauto. Qed.

Lemma exp_skip : forall n c t, is_float n = false \/ (c <> 101 /\ c <> 69) -> exponent n (c :: t) = Ok (n, c :: t).
Proof.
  intros n c t H. unfold exponent. rewrite peek0. cbn [rbind hd0 hd].
  replace (is_float n && ((c =? 101) || (c =? 69))) with false; [reflexivity|].
  destruct H as [-> | [A B]]; [reflexivity|]. apply Z.eqb_neq in A, B. rewrite A, B, andb_false_r. reflexivity.
Qed.

Lemma run : forall ds f (h : bool) n s, all (if h then hex_digit else is_digit) ds -> ds <> [] ->
  (h = true -> is_float n = false) ->
  num_loop (List.length ds + f) h n (ds ++ s) = after f h (puts n ds) s.
Proof.
  induction ds as [|c ds IH]; intros f h n s A NE FL; [congruence|].
  inversion A; subst. cbn [List.length plus app]. rewrite num_loop_eq.
  rewrite exp_skip.
  2:{ destruct h; [left; auto|]. right. apply digit_range in H1. lia. }
  cbn [rbind]. rewrite peek0. cbn [rbind hd0 hd].
  assert (DG : digit h n c = Ok (and01 (put n c) c, false)).
  { unfold digit. destruct h.
    - unfold hex_digit in H1. apply orb_true_iff in H1. destruct (is_digit c); [reflexivity|].
      destruct H1 as [H1|H1]; [discriminate|]. rewrite H1. reflexivity.
    - rewrite H1. reflexivity. }
  rewrite DG. cbn [rbind]. change (adv 1 (c :: ds ++ s)) with (ds ++ s).
  unfold puts. cbn [fold_left]. fold (puts (and01 (put n c) c) ds).
  destruct ds as [|d ds]; [reflexivity|].
  rewrite after_go.
  - apply IH; [assumption | discriminate |]. intros Hh. specialize (FL Hh). unfold put. destruct n as [p a b x o fl]. cbn in *.
    destruct (p =? 0); [exact FL|]. destruct (p =? 1); exact FL.
  - left. cbn [app]. apply digit_not_ender. inversion H2; subst. destruct h; [assumption|].
    unfold hex_digit. rewrite H3. reflexivity.
Qed.

Lemma puts0 : forall ds a b x o fl, puts (mknum 0 a b x o fl) ds = mknum 0 (a ++ ds) b x (o && forallb bin ds) fl.
Proof.
  induction ds as [|c ds IH]; intros; unfold puts; cbn [fold_left].
  - cbn. rewrite app_nil_r, andb_true_r. reflexivity.
  - change (puts (mknum 0 (a ++ [c]) b x (o && ((c =? 48) || (c =? 49))) fl) ds = mknum 0 (a ++ c :: ds) b x (o && forallb bin (c :: ds)) fl).
    rewrite IH, <- app_assoc. cbn. rewrite <- andb_assoc. reflexivity.
Qed.
Lemma puts1 : forall ds a b x o fl, exists o', puts (mknum 1 a b x o fl) ds = mknum 1 a (b ++ ds) x o' fl.
Proof.
  induction ds as [|c ds IH]; intros; unfold puts; cbn [fold_left].
  - exists o. rewrite app_nil_r. reflexivity.
  - destruct (IH a (b ++ [c]) x (o && ((c =? 48) || (c =? 49))) fl) as [o' E]. exists o'. rewrite <- app_assoc in E. exact E.
Qed.
Lemma puts2 : forall ds a b x o fl, exists o', puts (mknum 2 a b x o fl) ds = mknum 2 a b (x ++ ds) o' fl.
Proof.
  induction ds as [|c ds IH]; intros; unfold puts; cbn [fold_left].
  - exists o. rewrite app_nil_r. reflexivity.
  - destruct (IH a b (x ++ [c]) (o && ((c =? 48) || (c =? 49))) fl) as [o' E]. exists o'. rewrite <- app_assoc in E. exact E.
Qed.

Lemma dot_step : forall f a o s, num_loop (S f) false (mknum 0 a [] [] o false) (46 :: s) =
  after f false (mknum 1 a [46] [] false true) s.
Proof.
  intros. rewrite num_loop_eq. rewrite exp_skip by auto. cbn [rbind]. rewrite peek0. cbn [rbind hd0 hd].
  change (digit false (mknum 0 a [] [] o false) 46) with (Ok (and01 (mknum 1 a [46] [] o true) 46, false)).
  cbn [rbind]. unfold and01. cbn [part n0 n1 n2 is01s is_float]. rewrite andb_false_r. reflexivity.
Qed.
Lemma b_step : forall f a s, num_loop (S f) false (mknum 0 a [] [] true false) (98 :: s) =
  Ok (mknum 0 (a ++ [98]) [] [] false false, s).
Proof. intros. rewrite num_loop_eq. rewrite exp_skip by auto. reflexivity. Qed.
Lemma exp_step : forall f a b o e sg d s, b <> [] -> (e = 101 \/ e = 69) -> (sg = [] \/ sg = [43] \/ sg = [45]) -> is_digit d = true ->
  num_loop (S f) false (mknum 1 a (46 :: b) [] o true) (e :: sg ++ d :: s) =
  num_loop (S f) false (mknum 2 a (46 :: b) (e :: sg) o true) (d :: s).
Proof.
  intros f a b o e sg d s NB E SG D. rewrite !num_loop_eq.
  assert (DN : d <> 101 /\ d <> 69 /\ d <> 43 /\ d <> 45) by (apply digit_range in D; lia).
  rewrite (exp_skip _ d) by tauto.
  assert (X : exponent (mknum 1 a (46 :: b) [] o true) (e :: sg ++ d :: s) = Ok (mknum 2 a (46 :: b) (e :: sg) o true, d :: s)).
  { unfold exponent. rewrite peek0. cbn [rbind hd0 hd is_float].
    replace (true && ((e =? 101) || (e =? 69))) with true by (destruct E as [-> | ->]; reflexivity).
    replace (part _ =? 1) with true by reflexivity.
    replace (1 <? zlen (cur (mknum 1 a (46 :: b) [] o true))) with true.
    2:{ symmetry. apply Z.ltb_lt. unfold cur, zlen. cbn. destruct b; [congruence|]. cbn [List.length]. lia. }
    cbn [andb]. change (adv 1 (e :: sg ++ d :: s)) with (sg ++ d :: s). rewrite peek0. cbn [rbind].
    destruct DN as (_ & _ & D1 & D2). apply Z.eqb_neq in D1, D2.
    destruct SG as [-> | [-> | ->]]; cbn [app hd0 hd]; [rewrite D1, D2; reflexivity | reflexivity | reflexivity]. }
  rewrite X. reflexivity.
Qed.

(** The loop on a decimal number. *)
Lemma not_ender_e : forall e t, e = 101 \/ e = 69 -> ~ ends_token (e :: t).
Proof. intros e t [-> | ->]; apply digit_not_ender; reflexivity. Qed.

Definition start := mknum 0 [] [] [] true false.

Lemma loop_int : forall a s f, all is_digit a -> exists o, forall k,
  (f = List.length a + k)%nat ->
  num_loop f false start (a ++ s) = if match a with [] => true | _ => false end then num_loop k false start s
    else after k false (mknum 0 a [] [] o false) s.
Proof.
  intros a s f A. exists (forallb bin a). intros k ->. destruct a as [|c a]; [reflexivity|].
  rewrite run; [|exact A | discriminate | discriminate]. unfold start. rewrite puts0. reflexivity.
Qed.

Lemma loop_frac : forall a s k, all is_digit a ->
  num_loop (List.length a + S k) false start (a ++ 46 :: s) = after k false (mknum 1 a [46] [] false true) s.
Proof.
  intros a s k A. destruct (loop_int a (46 :: s) (List.length a + S k) A) as [o E]. rewrite (E (S k) eq_refl).
  destruct a as [|c a]; [apply dot_step|]. rewrite after_go by (right; reflexivity). apply dot_step.
Qed.

Lemma loop_frac2 : forall a b s k, all is_digit a -> all is_digit b -> exists o,
  num_loop (List.length a + S (List.length b + k)) false start (a ++ 46 :: b ++ s) =
  after k false (mknum 1 a (46 :: b) [] o true) s.
Proof.
  intros a b s k A B. rewrite loop_frac by exact A. destruct b as [|d b]; [exists false; reflexivity|].
  rewrite after_go.
  - rewrite run; [|exact B | discriminate | discriminate].
    destruct (puts1 (d :: b) a [46] [] false true) as [o ->]. exists o. reflexivity.
  - left. apply digit_not_ender. inversion B; subst. unfold hex_digit. rewrite H1. reflexivity.
Qed.

Lemma loop_decimal : forall v r f, decimal v -> ends_token r -> hd 0 r <> 46 -> (List.length v <= f)%nat ->
  exists m, num_loop f false start (v ++ r) = Ok (m, r) /\ text m = v.
Proof.
  intros v r f D E N L. destruct D as [a A NE | a b A B | a b e sg x A B NB EE SG X NX].
  - destruct (loop_int a r f A) as [o H]. rewrite (H (f - List.length a)%nat) by lia.
    destruct a as [|c a]; [congruence|]. rewrite after_stop by assumption. eexists. split; [reflexivity|].
    unfold text. cbn. rewrite app_nil_r. reflexivity.
  - rewrite app_length in L. cbn [List.length] in L.
    destruct (loop_frac2 a b r (f - (List.length a + S (List.length b))) A B) as [o H].
    replace f with (List.length a + S (List.length b + (f - (List.length a + S (List.length b)))))%nat by lia.
    rewrite <- app_assoc. cbn [app]. rewrite H, after_stop by assumption. eexists. split; [reflexivity|].
    unfold text. cbn. rewrite app_nil_r. reflexivity.
  - rewrite app_length in L. cbn [List.length] in L. rewrite app_length in L. cbn [List.length] in L. rewrite app_length in L.
    set (k := (f - (List.length a + S (List.length b)))%nat).
    assert (KL : (List.length x <= k)%nat) by (unfold k; lia).
    replace f with (List.length a + S (List.length b + k))%nat by (unfold k; lia).
    replace ((a ++ 46 :: b ++ e :: sg ++ x) ++ r) with (a ++ 46 :: b ++ (e :: sg ++ x ++ r)).
    2:{ rewrite <- app_assoc. cbn [app]. rewrite <- app_assoc. cbn [app]. rewrite <- app_assoc. reflexivity. }
    destruct (loop_frac2 a b (e :: sg ++ x ++ r) k A B) as [o ->].
    rewrite after_go by (left; apply not_ender_e; exact EE).
    destruct x as [|d x]; [congruence|]. destruct k as [|k]; [cbn in KL; lia|].
    change (sg ++ (d :: x) ++ r) with (sg ++ d :: (x ++ r)).
    rewrite exp_step; [|exact NB | exact EE | exact SG | inversion X; assumption].
    change (d :: x ++ r) with ((d :: x) ++ r).
    replace (S k) with (List.length (d :: x) + (S k - List.length (d :: x)))%nat by lia.
    rewrite run; [|exact X | discriminate | discriminate].
    destruct (puts2 (d :: x) a (46 :: b) (e :: sg) o true) as [o' ->]. rewrite after_stop by assumption.
    eexists. split; [reflexivity|]. unfold text. reflexivity.
Qed.

Lemma loop_binary : forall a r f, all bin a -> a <> [] -> (List.length a < f)%nat ->
  exists m, num_loop f false start ((a ++ [98]) ++ r) = Ok (m, r) /\ text m = a ++ [98].
Proof.
  intros a r f A NE L.
  assert (AD : all is_digit a).
  { eapply Forall_impl; [|exact A]. intros c H. unfold bin in H. apply orb_true_iff in H. rewrite !Z.eqb_eq in H.
    apply digit_range. lia. }
  rewrite <- app_assoc. cbn [app].
  replace f with (List.length a + S (f - List.length a - 1))%nat by lia.
  rewrite run; [|exact AD | exact NE | discriminate]. unfold start. rewrite puts0.
  replace (true && forallb bin a) with true.
  2:{ symmetry. apply forallb_forall. unfold all in A. rewrite Forall_forall in A. exact A. }
  rewrite after_go.
  - rewrite b_step. eexists. split; [reflexivity|]. unfold text. cbn. rewrite app_nil_r. reflexivity.
  - left. apply digit_not_ender. reflexivity.
Qed.

Lemma loop_hex : forall c a r f, all hex_digit a -> a <> [] -> (List.length a <= f)%nat -> ends_token r -> hd 0 r <> 46 ->
  exists m, num_loop f true (mknum 0 [48; c] [] [] true false) (a ++ r) = Ok (m, r) /\ text m = 48 :: c :: a.
Proof.
  intros c a r f A NE L E N. replace f with (List.length a + (f - List.length a))%nat by lia.
  rewrite run; [|exact A | exact NE | reflexivity]. rewrite puts0, after_stop by assumption.
  eexists. split; [reflexivity|]. unfold text. cbn. rewrite app_nil_r. reflexivity.
Qed.

(** ** parse_literal_number *)
Lemma no_keyword : forall t, (is_digit (hd 0 t) = true \/ (hd 0 t = 46 /\ hd 0 (tl t) <> 46)) -> is_keyword t = Ok None.
Proof.
  intros t H. destruct (is_keyword_spec t) as (r & E & K). rewrite E. destruct r as [k|]; [|reflexivity]. exfalso.
  destruct (proj1 (K k) eq_refl) as (q & -> & _). destruct H as [H|[H1 H2]]; destruct k; cbn in *; try discriminate; congruence.
Qed.

Definition number (v r : list Z) : Prop :=
  ((decimal v \/ hexadecimal v) /\ ends_token r /\ hd 0 r <> 46) \/ (binary v /\ ends_token r).

Lemma parse_sound : forall t v r, parse_literal_number t = Ok (Some (LText v, r)) -> t = v ++ r /\ number v r.
Proof.
  intros t v r H. unfold parse_literal_number in H.
  destruct (is_keyword_spec t) as (k & E & _). rewrite E in H. cbn [rbind] in H. destruct k; [discriminate|].
  rewrite peek0 in H. cbn [rbind] in H.
  destruct (hd0 t =? 39) eqn:Q.
  { destruct (char_literal (adv 1 t)) as [[? ?]| | |]; cbn in H; discriminate. }
  assert (L : forall h n s, inv h n -> (part n = 0 -> n0 n = [] -> hd0 s <> 98) ->
    (do r <- num_loop (S (List.length t)) h n s;
     let '(n', s2) := r in do e <- is_end_symbol_token s2 0;
     Ok (if e then Some (LText (n0 n' ++ n1 n' ++ n2 n'), s2) else None)) = Ok (Some (LText v, r)) ->
    exists w, s = w ++ r /\ v = text n ++ w /\ number v r).
  { intros h n s I FB X. destruct (num_loop _ h n s) as [[m s2]| | |] eqn:NL; cbn [rbind] in X; try discriminate.
    destruct (end_spec0 s2) as (b & EB & B). rewrite EB in X. cbn [rbind] in X. destruct b; [|discriminate].
    inversion X; subst. destruct (loop_sound _ _ _ _ _ _ I FB NL) as (w & -> & T & R). exists w. split; [reflexivity|].
    change (n0 m ++ n1 m ++ n2 m) with (text m). split; [exact T|]. unfold number.
    assert (ends_token r) by tauto. tauto. }
  assert (ID : inv false start) by (left; cbn; repeat split; try reflexivity; constructor).
  assert (NOX : (do c2 <- peek 0 t; if is_digit c2 || false || (c2 =? 46) then
       do r <- num_loop (S (List.length t)) false start t;
       let '(n', s2) := r in do e <- is_end_symbol_token s2 0;
       Ok (if e then Some (LText (n0 n' ++ n1 n' ++ n2 n'), s2) else None) else Ok None) = Ok (Some (LText v, r)) ->
     t = v ++ r /\ number v r).
  { intros X. rewrite peek0 in X. cbn [rbind] in X. destruct (is_digit (hd0 t) || false || (hd0 t =? 46)) eqn:C; [|discriminate].
    apply L in X; [|exact ID | intros _ _ K; rewrite K in C; discriminate].
    destruct X as (w & -> & -> & N). split; [reflexivity | exact N]. }
  destruct (Z.eqb_spec (hd0 t) 48) as [Z0|Z0].
  - destruct t as [|c0 t0]; [discriminate|]. cbn in Z0. subst c0.
    assert (P1 : peek 1 (48 :: t0) = Ok (hd0 t0)) by (destruct t0; reflexivity).
    rewrite P1 in H. cbn [rbind] in H.
    destruct ((hd0 t0 =? 88) || (hd0 t0 =? 120)) eqn:HX.
    + destruct t0 as [|x t0]; [discriminate|]. cbn [hd0 hd] in HX. cbn [firstn] in H.
      change (adv 2 (48 :: x :: t0)) with t0 in H. rewrite peek0 in H. cbn [rbind] in H.
      replace (is_digit (hd0 t0) || true || (hd0 t0 =? 46)) with true in H by (rewrite orb_true_r; reflexivity).
      apply L in H; [| |cbn; discriminate].
      * destruct H as (w & -> & -> & N). split; [reflexivity | exact N].
      * cbn. repeat split; try reflexivity. exists x, []. split; [reflexivity|]. split; [|constructor].
        apply orb_true_iff in HX. rewrite !Z.eqb_eq in HX. exact HX.
    + apply NOX. exact H.
  - cbn [rbind] in H. apply NOX. exact H.
Qed.

Lemma hd_app : forall (a b : list Z), a <> [] -> hd 0 (a ++ b) = hd 0 a.
Proof. intros [|x a] b H; [congruence | reflexivity]. Qed.

Lemma ender_not_x : forall r, ends_token r -> hd 0 r <> 88 /\ hd 0 r <> 120.
Proof.
  intros r [K|[q ->]]; [|cbn; split; discriminate].
  assert (X : forallb (fun x => negb (x =? 88) && negb (x =? 120)) ender = true) by reflexivity.
  rewrite forallb_forall in X. specialize (X _ K). rewrite andb_true_iff, !negb_true_iff, !Z.eqb_neq in X. exact X.
Qed.

Lemma decimal_first : forall v, decimal v ->
  (is_digit (hd 0 v) = true \/ (hd 0 v = 46 /\ (v = [46] \/ is_digit (hd 0 (tl v)) = true))) /\
  (hd 0 (tl v) <> 88 /\ hd 0 (tl v) <> 120) /\ v <> [].
Proof.
  assert (DX : forall c, is_digit c = true -> c <> 88 /\ c <> 120) by (intros c H; apply digit_range in H; lia).
  assert (F : forall a w, all is_digit a -> hd 0 w <> 88 /\ hd 0 w <> 120 -> a <> [] -> hd 0 (tl (a ++ w)) <> 88 /\ hd 0 (tl (a ++ w)) <> 120).
  { intros a w A N NE. destruct a as [|c [|d a]]; [congruence | exact N |]. cbn. apply DX. inversion A; subst. inversion H2; assumption. }
  intros v D. destruct D as [a A NE | a b A B | a b e sg x A B NB EE SG X NX].
  - destruct a as [|c a]; [congruence|]. inversion A; subst. split; [left; assumption|]. split; [|discriminate].
    specialize (F (c :: a) [] A). rewrite app_nil_r in F. apply F; [cbn; lia | discriminate].
  - destruct a as [|c a].
    + split; [right; split; [reflexivity|]; destruct b as [|d b]; [left; reflexivity | right; inversion B; assumption]|].
      split; [|discriminate]. destruct b as [|d b]; [cbn; lia | cbn; apply DX; inversion B; assumption].
    + inversion A; subst. split; [left; assumption|]. split; [|discriminate]. apply F; [exact A | cbn; lia | discriminate].
  - destruct a as [|c a].
    + destruct b as [|d b]; [congruence|]. inversion B; subst.
      split; [right; split; [reflexivity|]; right; assumption|]. split; [|discriminate]. cbn. apply DX. assumption.
    + inversion A; subst. split; [left; assumption|]. split; [|discriminate]. apply F; [exact A | cbn; lia | discriminate].
Qed.

Lemma parse_plain : forall t m r, (is_digit (hd 0 t) = true \/ (hd 0 t = 46 /\ hd 0 (tl t) <> 46)) ->
  (hd 0 (tl t) <> 88 /\ hd 0 (tl t) <> 120) ->
  num_loop (S (List.length t)) false start t = Ok (m, r) -> ends_token r ->
  parse_literal_number t = Ok (Some (LText (text m), r)).
Proof.
  intros t m r C X NL E. unfold parse_literal_number. rewrite no_keyword by exact C. cbn [rbind]. rewrite peek0. cbn [rbind].
  change (hd0 t) with (hd 0 t).
  replace (hd 0 t =? 39) with false.
  2:{ symmetry. apply Z.eqb_neq. destruct C as [C|[C _]]; [apply digit_range in C; lia | lia]. }
  assert (HX : (if hd 0 t =? 48 then do c1 <- peek 1 t; Ok ((c1 =? 88) || (c1 =? 120)) else Ok false) = Ok false).
  { destruct (hd 0 t =? 48) eqn:Z0; [|reflexivity]. destruct t as [|c t]; [discriminate|].
    assert (P1 : peek 1 (c :: t) = Ok (hd0 t)) by (destruct t; reflexivity). rewrite P1. cbn [rbind].
    cbn [tl] in X. change (hd0 t) with (hd 0 t). destruct X as [X1 X2]. apply Z.eqb_neq in X1, X2. rewrite X1, X2. reflexivity. }
  rewrite HX. cbn [rbind]. rewrite peek0. cbn [rbind]. change (hd0 t) with (hd 0 t).
  replace (is_digit (hd 0 t) || false || (hd 0 t =? 46)) with true.
  2:{ symmetry. destruct C as [-> | [-> _]]; reflexivity. }
  fold start. rewrite NL. cbn [rbind]. destruct (end_spec0 r) as (b & -> & B). apply B in E. subst b. reflexivity.
Qed.

Lemma parse_complete : forall v r, number v r -> parse_literal_number (v ++ r) = Ok (Some (LText v, r)).
Proof.
  intros v r [([D|D] & E & N)|(D & E)].
  - destruct (decimal_first v D) as (C & X & NE).
    destruct (loop_decimal v r (S (List.length (v ++ r))) D E N) as (m & NL & T).
    { rewrite app_length. lia. }
    rewrite <- T at 2. destruct v as [|c v]; [congruence|].
    apply parse_plain; [| | exact NL | exact E].
    + destruct C as [C|[C [C2|C2]]]; [left; exact C | right | right]; (split; [exact C|]).
      * inversion C2; subst. exact N.
      * destruct v as [|d v]; [discriminate|]. cbn in *. apply digit_range in C2. lia.
    + destruct v as [|d v]; [apply ender_not_x; exact E | exact X].
  - destruct D as [c a C A NE].
    destruct (loop_hex c a r (S (List.length ((48 :: c :: a) ++ r))) A NE) as (m & NL & T); [cbn [List.length app]; rewrite app_length; lia | exact E | exact N|].
    unfold parse_literal_number. rewrite no_keyword by (left; reflexivity). cbn [rbind]. rewrite peek0. cbn [rbind app hd0 hd].
    cbn [Z.eqb Pos.eqb].
    change (peek 1 (48 :: c :: a ++ r)) with (Ok c : res Z). cbn [rbind].
    replace ((c =? 88) || (c =? 120)) with true by (destruct C as [-> | ->]; reflexivity). cbn [firstn].
    change (adv 2 (48 :: c :: a ++ r)) with (a ++ r). rewrite peek0. cbn [rbind].
    replace (is_digit (hd0 (a ++ r)) || true || (hd0 (a ++ r) =? 46)) with true by (rewrite orb_true_r; reflexivity).
    cbn [app] in NL. rewrite NL. cbn [rbind]. destruct (end_spec0 r) as (b & -> & B). apply B in E. subst b. cbn [rbind].
    change (n0 m ++ n1 m ++ n2 m) with (text m). rewrite T. reflexivity.
  - destruct D as [a A NE].
    destruct (loop_binary a r (S (List.length ((a ++ [98]) ++ r))) A NE) as (m & NL & T); [rewrite !app_length; cbn; lia|].
    assert (BD : forall c, bin c = true -> 48 <= c <= 49).
    { intros c H. unfold bin in H. apply orb_true_iff in H. rewrite !Z.eqb_eq in H. lia. }
    rewrite <- T at 2. destruct a as [|c a]; [congruence|]. inversion A; subst.
    apply parse_plain; [| | exact NL | exact E].
    + left. cbn. apply digit_range. apply BD in H1. lia.
    + destruct a as [|d a]; cbn; [lia|]. inversion H2; subst. apply BD in H3. lia.
Qed.

(** ** Everything is scanned inside the text *)
Lemma exponent_safe : forall n s, exponent n s = Thr \/ exists m s1, exponent n s = Ok (m, s1) /\ (List.length s1 <= List.length s)%nat.
Proof.
  intros n s. unfold exponent. rewrite peek0. cbn [rbind].
  destruct (is_float n && ((hd0 s =? 101) || (hd0 s =? 69))); [|right; do 2 eexists; split; [reflexivity | lia]].
  destruct ((part n =? 1) && (1 <? zlen (cur n))); [|auto]. rewrite peek0. cbn [rbind].
  assert (LA : forall k (t : ptr), (List.length (adv k t) <= List.length t)%nat) by (intros; unfold adv; rewrite skipn_length; lia).
  pose proof (LA 1%nat s). pose proof (LA 1%nat (adv 1 s)).
  destruct ((hd0 (adv 1 s) =? 43) || (hd0 (adv 1 s) =? 45)); right; do 2 eexists; (split; [reflexivity | lia]).
Qed.
Lemma digit_safe : forall h n c, digit h n c = Thr \/ exists d, digit h n c = Ok d /\ c <> 0.
Proof.
  intros h n c. unfold digit.
  destruct (is_digit c) eqn:D; [right; eexists; split; [reflexivity|]; intros ->; discriminate|].
  destruct (is_hex_letter c && h) eqn:H; [right; eexists; split; [reflexivity|]; intros ->; discriminate|].
  destruct (Z.eqb_spec c 46) as [->|_].
  - destruct (negb h && (part n =? 0)); [right; eexists; split; [reflexivity | discriminate] | auto].
  - destruct (Z.eqb_spec c 98) as [->|_]; [|auto].
    destruct (negb (is01s n) || negb (part n =? 0)); [auto | right; eexists; split; [reflexivity | discriminate]].
Qed.
Lemma num_loop_safe : forall f h n s, (List.length s < f)%nat -> num_loop f h n s = Thr \/ exists r, num_loop f h n s = Ok r.
Proof.
  induction f as [|f IH]; intros h n s L; [lia|]. rewrite num_loop_eq.
  destruct (exponent_safe n s) as [-> | (m & s1 & -> & L1)]; [auto|]. cbn [rbind]. rewrite peek0. cbn [rbind].
  destruct (digit_safe h m (hd0 s1)) as [-> | ([m2 fin] & -> & NZ)]; [auto|]. cbn [rbind].
  destruct fin; [right; eauto|]. destruct s1 as [|c s1]; [cbn in NZ; congruence|].
  change (adv 1 (c :: s1)) with s1. destruct (after_inv f h m2 s1 _ eq_refl) as [(-> & _)| ->]; [right; eauto|].
  apply IH. cbn in L1. lia.
Qed.
Lemma char_safe : forall s, char_literal s = Thr \/ exists r, char_literal s = Ok r.
Proof.
  intros s. unfold char_literal. rewrite peek0. cbn [rbind].
  assert (Q : forall v t, (do q <- peek 0 (adv 1 t); if q =? 39 then Ok (v, adv 1 (adv 1 t)) else Thr) = Thr \/
      exists r : Z * ptr, (do q <- peek 0 (adv 1 t); if q =? 39 then Ok (v, adv 1 (adv 1 t)) else Thr) = Ok r).
  { intros v t. rewrite peek0. cbn [rbind]. destruct (hd0 (adv 1 t) =? 39); eauto. }
  destruct (hd0 s =? 92).
  - rewrite peek0. cbn [rbind]. destruct (hd0 (adv 1 s) =? 110); [apply Q|].
    destruct (hd0 (adv 1 s) =? 114); [apply Q|]. destruct (hd0 (adv 1 s) =? 116); [apply Q | auto].
  - destruct (hd0 s =? 39); [auto|]. destruct (hd0 s =? 0); [auto|]. apply Q.
Qed.
Lemma parse_safe : forall t, parse_literal_number t = Thr \/ exists r, parse_literal_number t = Ok r.
Proof.
  intros t. unfold parse_literal_number. destruct (is_keyword_spec t) as (k & -> & _). cbn [rbind].
  destruct k; [eauto|]. rewrite peek0. cbn [rbind]. destruct (hd0 t =? 39).
  { destruct (char_safe (adv 1 t)) as [-> | [r ->]]; cbn [rbind]; eauto. }
  assert (HX : exists hx, (if hd0 t =? 48 then do c1 <- peek 1 t; Ok ((c1 =? 88) || (c1 =? 120)) else Ok false) = Ok hx).
  { destruct (hd0 t =? 48) eqn:Z0; [|eauto]. destruct t as [|c t]; [discriminate|].
    replace (peek 1 (c :: t)) with (Ok (hd0 t) : res Z) by (destruct t; reflexivity). cbn [rbind]. eauto. }
  destruct HX as [hx ->]. cbn [rbind]. rewrite peek0. cbn [rbind].
  match goal with |- context [if ?b then _ else _] => destruct b end; [|eauto].
  match goal with |- context [num_loop ?f ?h ?n ?s] =>
    destruct (num_loop_safe f h n s) as [-> | [[m r] ->]] end; [|auto|].
  - destruct hx; [unfold adv; rewrite skipn_length; lia | lia].
  - cbn [rbind]. destruct (end_spec0 r) as (b & -> & _). cbn [rbind]. eauto.
Qed.
Lemma symbol_safe : forall t, t <> [] -> symbol_token t = Thr \/ exists r, symbol_token t = Ok r.
Proof.
  intros t NE. unfold symbol_token. destruct (parse_safe t) as [-> | [n ->]]; [auto|]. cbn [rbind].
  destruct n as [[l r]|]; [eauto|]. rewrite peek0. cbn [rbind]. destruct (hd0 t =? 34) eqn:Q.
  - unfold string_literal. rewrite peek0. cbn [rbind]. rewrite Q.
    destruct (string_loop_safe (adv 1 t) 34) as [-> | [r ->]]; cbn [rbind]; eauto.
  - destruct (word_token_ok t NE) as (w & r & -> & _). cbn [rbind]. eauto.
Qed.
