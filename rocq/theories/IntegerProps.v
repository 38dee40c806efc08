(** Properties C19, C20 and C69: integers as text. *)
From Coq Require Import List ZArith Bool Lia.
From Verif Require Import Base StringModel StringSpec StringProofs StringProps IntegerModel IntegerSpec IntegerProofs.
Import ListNotations.
Open Scope Z_scope.

(** The largest number up to which repeated multiplication by 0.1 yields the digits. *)
Theorem C19_toString_is_decimal_partial :
  forall n f, 0 <= n <= 6755399441055748 -> srep f [] ->
  exists s l, z_toString n f = Ok s /\ srep s l /\ shows s l /\ decimal n l.
Proof.
  intros n f Hn Rf. destruct (toString_ok n f Rf) as (s & E & R); [unfold BOUND; lia|].
  destruct (Z.ltb_spec n 0); [lia|]. exists s, (dec n). split; auto. split; auto. split; [now apply rep_shows|].
  apply dec_decimal. unfold BOUND. lia.
Qed.
Print Assumptions C19_toString_is_decimal_partial.
Theorem C19_toString_negative_partial :
  forall n f, -6755399441055748 <= n < 0 -> srep f [] ->
  exists s l, z_toString n f = Ok s /\ shows s (45 :: l) /\ decimal (- n) l.
Proof.
  intros n f Hn Rf. destruct (toString_ok n f Rf) as (s & E & R); [unfold BOUND; lia|].
  destruct (Z.ltb_spec n 0); [|lia]. exists s, (dec (- n)). split; auto. split; [now apply rep_shows|].
  apply dec_decimal. unfold BOUND. lia.
Qed.
Print Assumptions C19_toString_negative_partial.

(** Round trip for the non-negative part. *)
Theorem C19_round_trip_partial :
  forall n f, 0 <= n <= 6755399441055748 -> srep f [] ->
  exists s, z_toString n f = Ok s /\ z_parse s = Ok (Some n) /\ zs_parseInt s = Ok n.
Proof.
  intros n f Hn Rf. destruct (C19_toString_is_decimal_partial n f Hn Rf) as (s & l & E & R & _ & (Hne & W & _)).
  exists s. split; auto. unfold zs_parseInt. rewrite (parse_decimal_ok s l n R Hne W).
  replace (Z.min LLMAX n) with n by (unfold LLMAX; lia). auto.
Qed.
Print Assumptions C19_round_trip_partial.
Example C19_case :
  (do f <- s_lit []; do s <- z_toString 907 f; Ok (cstr (cchars s) 0)) = Ok (Some [57; 48; 55]) /\
  (do f <- s_lit []; do s <- z_toString 0 f; z_parse s) = Ok (Some 0) /\
  (do f <- s_lit []; do s <- z_toString 6755399441055748 f; z_parse s) = Ok (Some 6755399441055748).
Proof. repeat split; vm_compute; reflexivity. Qed.

(** The bound is exact: the next number is printed with a wrong digit. *)
Theorem C19_bound_tight_refuted :
  (do f <- s_lit []; do s <- z_toString 6755399441055749 f; do v <- z_parse s; Ok (v, cstr (cchars s) 0)) =
  Ok (Some 6755399441055759, Some [54; 55; 53; 53; 51; 57; 57; 52; 52; 49; 48; 53; 53; 55; 53; 57]).
Proof. vm_compute. reflexivity. Qed.
Print Assumptions C19_bound_tight_refuted.
(** 2^63-1 prints as 9223372036854778627. *)
Theorem C19_max_int_refuted :
  (do f <- s_lit []; do s <- z_toString LLMAX f; Ok (cstr (cchars s) 0)) =
    Ok (Some [57; 50; 50; 51; 51; 55; 50; 48; 51; 54; 56; 53; 52; 55; 55; 56; 54; 50; 55]) /\
  LLMAX = 9223372036854775807.
Proof. split; vm_compute; reflexivity. Qed.
Print Assumptions C19_max_int_refuted.

(** No text starting with a minus sign is accepted, so no negative number survives the
    round trip; parseInt silently gives 0. *)
Theorem C19_negative_text_rejected_refuted :
  forall s l, srep s (45 :: l) -> z_parse s = Ok None /\ zs_parseInt s = Ok 0.
Proof.
  intros s l R. unfold zs_parseInt, z_parse. rewrite (is_integer_ok s _ R). cbn [rbind].
  assert (classify (45 :: l) = IInvalid) as -> by reflexivity. auto.
Qed.
Print Assumptions C19_negative_text_rejected_refuted.
Theorem C19_negative_round_trip_refuted :
  forall n f, -6755399441055748 <= n < 0 -> srep f [] ->
  exists s, z_toString n f = Ok s /\ z_parse s = Ok None /\ zs_parseInt s = Ok 0.
Proof.
  intros n f Hn Rf. destruct (toString_ok n f Rf) as (s & E & R); [unfold BOUND; lia|].
  destruct (Z.ltb_spec n 0); [|lia]. exists s. split; auto. eapply C19_negative_text_rejected_refuted; eauto.
Qed.
Print Assumptions C19_negative_round_trip_refuted.
(** The smallest 64-bit integer has no negation. *)
Theorem C19_min_int_overflows_refuted : forall f l, srep f l -> zlen l <= 32767 -> z_toString LLMIN f = UB.
Proof.
  intros f l R Hl. unfold z_toString.
  destruct (s_lit_ok [48]) as (z & -> & Rz & _). { apply nonul_cons. split; [lia|apply nonul_nil]. }
  cbn [rbind]. destruct (case_ok lower f l lower_nz R Hl) as (f' & E & _). unfold s_toLower. rewrite E. reflexivity.
Qed.
Print Assumptions C19_min_int_overflows_refuted.

(** ** C69: the "d<k>" format pads with zeros to at least k digits and keeps the value. *)
Lemma writes_zeros n l v : writes 10 l v -> l <> [] -> writes 10 (repeat 48 n ++ l) v.
Proof.
  induction 1 as [|l v c d H IH Hd Hlt]; intros Hne; [congruence|].
  rewrite app_assoc. constructor; auto. destruct l as [|x l].
  - rewrite app_nil_r. inversion H; subst.
    + clear. induction n; [constructor|].
      replace (repeat 48 (S n)) with (repeat 48 n ++ [48]).
      * apply (w_snoc 10 (repeat 48 n) 0 48 0 IHn); [left; lia|lia].
      * clear. induction n; cbn; [reflexivity|]. cbn in IHn. now rewrite IHn.
    + destruct l; discriminate.
  - apply IH. discriminate.
Qed.
Theorem C69_padded_format :
  forall n f w k, 0 <= n <= 6755399441055748 -> srep f (100 :: w) -> w <> [] -> writes 10 w k ->
  k < 2147483648 -> zlen w < 32767 ->
  exists s l m, z_toString n f = Ok s /\ shows s l /\ decimal n m /\
    l = repeat 48 (length l - length m) ++ m /\ zlen l = Z.max k (zlen m) /\
    z_parse s = Ok (Some n).
Proof.
  intros n f w k Hn Rf Hw W Hk Hlw.
  destruct (toString_pad_ok n f w k) as (s & E & R); auto.
  pose proof (dec_decimal n ltac:(unfold BOUND; lia)) as (D1 & D2 & D3).
  exists s, (repeat 48 (Z.to_nat (k - zlen (dec n))) ++ dec n), (dec n). split; auto. split; [now apply rep_shows|].
  split; [split; auto|]. split; [|split].
  - f_equal. f_equal. rewrite app_length, repeat_length. lia.
  - rewrite zlen_app. unfold zlen at 1. rewrite repeat_length. lia.
  - rewrite (parse_decimal_ok s _ n R).
    + do 2 f_equal. unfold LLMAX. lia.
    + intros Hnil. apply app_eq_nil in Hnil. tauto.
    + now apply writes_zeros.
Qed.
Print Assumptions C69_padded_format.
Example C69_case :
  (do f <- s_lit [68; 53]; do s <- z_toString 42 f; Ok (cstr (cchars s) 0)) = Ok (Some [48; 48; 48; 52; 50]) /\
  (do f <- s_lit [100; 53]; do s <- z_toString (-42) f; Ok (cstr (cchars s) 0)) = Ok (Some [45; 48; 48; 48; 52; 50]).
Proof. split; vm_compute; reflexivity. Qed.

(** ** C20: literals *)
Theorem C20_decimal_value :
  forall s l v, srep s l -> l <> [] -> writes 10 l v -> v < 9223372036854775808 -> z_parse s = Ok (Some v).
Proof.
  intros s l v R H W Hv. rewrite (parse_decimal_ok s l v R H W). do 2 f_equal. unfold LLMAX. lia.
Qed.
Print Assumptions C20_decimal_value.
Theorem C20_hexadecimal_value :
  forall s x l v, srep s (48 :: x :: l) -> x = 120 \/ x = 88 -> l <> [] -> writes 16 l v ->
  v < 9223372036854775808 -> z_parse s = Ok (Some v).
Proof.
  intros s x l v R Hx H W Hv. rewrite (parse_hex_ok s x l v R Hx H W). do 2 f_equal. unfold LLMAX. lia.
Qed.
Print Assumptions C20_hexadecimal_value.
Theorem C20_binary_value :
  forall s x l v, srep s (l ++ [x]) -> x = 98 \/ x = 66 -> l <> [] -> writes 2 l v ->
  v < 9223372036854775808 -> z_parse s = Ok (Some v).
Proof.
  intros s x l v R Hx H W Hv. rewrite (parse_bin_ok s x l v R Hx H W). do 2 f_equal. unfold LLMAX. lia.
Qed.
Print Assumptions C20_binary_value.
Example C20_case :
  writes 16 [70; 102] 255 /\
  (do s <- s_lit [48; 120; 70; 102]; z_parse s) = Ok (Some 255) /\
  (do s <- s_lit [49; 48; 49; 98]; z_parse s) = Ok (Some 5) /\
  (do s <- s_lit [49; 48; 49]; z_parse s) = Ok (Some 101) /\
  (do s <- s_lit [49; 120]; z_parse s) = Ok None.
Proof.
  split; [|repeat split; vm_compute; reflexivity].
  apply (w_snoc 16 [70] 15 102 15); [|right; lia|lia]. apply (w_snoc 16 [] 0 70 15); [constructor|right; lia|lia].
Qed.

(** Values beyond 63 bits are accepted and replaced by the largest integer. *)
Theorem C20_overflow_saturates_refuted :
  forall s l v, srep s l -> l <> [] -> writes 10 l v -> 9223372036854775808 <= v ->
  z_parse s = Ok (Some 9223372036854775807).
Proof.
  intros s l v R H W Hv. rewrite (parse_decimal_ok s l v R H W). do 2 f_equal. unfold LLMAX. lia.
Qed.
Print Assumptions C20_overflow_saturates_refuted.

(** Which texts are accepted. *)
Definition dec_digit (c : Z) : Prop := 48 <= c <= 57.
Definition bin_digit (c : Z) : Prop := c = 48 \/ c = 49.
Definition hex_digit (c : Z) : Prop := 48 <= c <= 57 \/ 97 <= c <= 102 \/ 65 <= c <= 70.
Definition is_b (c : Z) : Prop := c = 98 \/ c = 66.
Definition well_formed (l : list Z) : Prop :=
  (l <> [] /\ Forall dec_digit l) \/
  (exists x h, l = 48 :: x :: h /\ (x = 120 \/ x = 88) /\ h <> [] /\ Forall hex_digit h) \/
  (exists u x, l = u ++ [x] /\ is_b x /\ u <> [] /\ Forall bin_digit u).

Lemma skip_spec p l : p 0 = false -> exists u, l = u ++ skip p l /\ Forall (fun c => p c = true) u /\ p (head0 (skip p l)) = false.
Proof.
  intros H0. induction l as [|c l (u & E & F & N)]; cbn [skip].
  - exists []. auto.
  - destruct (p c) eqn:Ep.
    + exists (c :: u). cbn [app]. rewrite <- E. auto.
    + exists []. auto.
Qed.
Lemma bin_char_spec c : bin_char c = true <-> bin_digit c.
Proof.
  unfold bin_char, bin_digit, is_digit. destruct (Z.eqb_spec c 48); subst; [cbn; tauto|].
  destruct (Z.eqb_spec c 49); subst; [cbn; tauto|]. rewrite andb_false_r. split; [discriminate|tauto].
Qed.
Lemma is_digit_spec c : is_digit c = true <-> dec_digit c.
Proof. unfold is_digit, dec_digit. rewrite andb_true_iff, !Z.leb_le. tauto. Qed.
Lemma is_hexa_spec c : is_hexa c = true <-> hex_digit c.
Proof.
  unfold is_hexa, hex_digit, is_digit, lower.
  destruct (Z.leb_spec 65 c), (Z.leb_spec c 90), (Z.leb_spec 48 c), (Z.leb_spec c 57); cbn [andb orb];
  repeat match goal with |- context [Z.leb ?x ?y] => destruct (Z.leb_spec x y) end; cbn [andb]; split; intros; try lia; try discriminate; auto.
Qed.
Lemma lower_b c : lower c = 98 <-> is_b c.
Proof.
  unfold lower, is_b. destruct (Z.leb_spec 65 c), (Z.leb_spec c 90); cbn [andb]; lia.
Qed.
Lemma lower_x c : lower c = 120 <-> c = 120 \/ c = 88.
Proof. unfold lower. destruct (Z.leb_spec 65 c), (Z.leb_spec c 90); cbn [andb]; lia. Qed.

(** Exact acceptance for texts without spaces and without an early 'b'. *)
Theorem C20_accepts_exactly_partial :
  forall s l, srep s l -> ~ In 32 l ->
  (forall u x v, l = u ++ x :: v -> Forall bin_digit u -> is_b x -> u <> [] /\ v = []) ->
  exists r, z_parse s = Ok r /\ (r <> None <-> well_formed l).
Proof.
  intros s l R Hsp Hb. pose proof (sr_nonul _ _ R) as Hn. unfold z_parse. rewrite (is_integer_ok s l R). cbn [rbind].
  destruct l as [|c0 l0].
  { exists None. split; auto. split; [congruence|]. intros [[H _]|[(x & h & H & _)|(u & x & H & _)]].
    - congruence. - discriminate. - destruct u; discriminate. }
  set (l := c0 :: l0) in *. unfold classify.
  destruct (skip_spec bin_char l eq_refl) as (u & Eu & Fu & Nu).
  destruct (Z.eqb_spec (lower (head0 (skip bin_char l))) 98) as [E98|E98].
  - (* binary *)
    apply lower_b in E98. destruct (skip bin_char l) as [|x v] eqn:Es; [unfold is_b in E98; cbn in E98; lia|].
    cbn [head0] in E98.
    assert (Fb : Forall bin_digit u) by (apply (Forall_impl' _ _ _ (fun c => proj1 (bin_char_spec c)) Fu)).
    destruct (Hb u x v Eu Fb E98) as [Hu Hv]. subst v.
    rewrite (sr_count _ _ R). rewrite Eu in R |- *. rewrite zlen_app. change (zlen [x]) with 1.
    replace (zlen u + 1 - 1) with (zlen u) by lia.
    destruct (getSub_ok s [] u [x] R) as (r & Er & Rr & _). change (zlen (@nil Z)) with 0 in Er. rewrite Er. cbn [rbind].
    rewrite (cstr_cchars r _ Rr). cbn [ofo rbind]. eexists. split; [reflexivity|]. split; [intros _|discriminate].
    right. right. exists u, x. auto.
  - assert (Hnob : forall u' x, l = u' ++ [x] -> is_b x -> Forall bin_digit u' -> False).
    { intros u' x E Hx F. apply E98. rewrite E. rewrite skip_app.
      - cbn [skip]. destruct (bin_char x) eqn:Ex; [apply bin_char_spec in Ex; unfold is_b, bin_digit in *; lia|].
        cbn [head0]. now apply lower_b.
      - apply (Forall_impl' _ _ _ (fun c => proj2 (bin_char_spec c)) F). }
    destruct (Z.eqb_spec (head0 l) 48) as [E48|E48]; [destruct (Z.eqb_spec (lower (head0 (tl l))) 120) as [Ex|Ex]|]; cbn [andb].
    + (* hexadecimal *)
      apply lower_x in Ex. unfold l in E48, Ex. cbn [head0 tl] in E48, Ex. subst c0.
      destruct l0 as [|x h]; [cbn in Ex; lia|]. cbn [head0] in Ex. unfold l. cbn [skipn].
      destruct (skip_spec is_hexa h eq_refl) as (w & Ew & Fw & Nw).
      destruct (Nat.eqb_spec (length (skip is_hexa h)) (length h)) as [El|El].
      * exists None. split; auto. split; [congruence|]. intros [[_ F]|[(x' & h' & E & Hx' & Hh & F)|(u' & x' & E & Hx' & _ & F)]].
        -- inversion F; subst. inversion H2; subst. unfold dec_digit in H3. lia.
        -- inversion E; subst h'. rewrite skip_all in El.
           ++ destruct h; [congruence|discriminate].
           ++ apply (Forall_impl' _ _ _ (fun c => proj2 (is_hexa_spec c)) F).
        -- exfalso. eapply Hnob; eauto.
      * destruct (Z.eqb_spec (head0 (skip is_hexa h)) 32) as [E32|E32]; [|destruct (Z.eqb_spec (head0 (skip is_hexa h)) 0) as [E0|E0]]; cbn [orb].
        -- exfalso. apply Hsp. unfold l. simpl. right. right. rewrite Ew. apply in_or_app. right.
           destruct (skip is_hexa h); [cbn in E32; lia|]. cbn in E32. simpl; auto.
        -- assert (Hnil : skip is_hexa h = []).
           { destruct (skip is_hexa h) as [|y e] eqn:Ee; auto. cbn in E0. subst y. exfalso.
             unfold l in Hn. rewrite Ew in Hn. change (48 :: x :: w ++ 0 :: e) with ([48; x] ++ w ++ 0 :: e) in Hn.
             rewrite !nonul_app in Hn. rewrite (nonul_cons 0 e) in Hn. tauto. }
           rewrite Hnil, app_nil_r in Ew. subst w.
           rewrite (cstr_cchars s _ R). cbn [ofo rbind]. eexists. split; [reflexivity|]. split; [intros _|discriminate].
           right. left. exists x, h. repeat split; auto.
           ++ intros ->. apply El. reflexivity.
           ++ apply (Forall_impl' _ _ _ (fun c => proj1 (is_hexa_spec c)) Fw).
        -- exists None. split; auto. split; [congruence|]. intros [[_ F]|[(x' & h' & E & Hx' & Hh & F)|(u' & x' & E & Hx' & _ & F)]].
           ++ inversion F; subst. inversion H2; subst. unfold dec_digit in H3. lia.
           ++ inversion E; subst h'. exfalso. apply E0. rewrite skip_all; auto.
              apply (Forall_impl' _ _ _ (fun c => proj2 (is_hexa_spec c)) F).
           ++ exfalso. eapply Hnob; eauto.
    + assert (Hnox : forall x h, l = 48 :: x :: h -> x = 120 \/ x = 88 -> False).
      { intros x h E Hx. apply Ex. rewrite E. cbn [tl head0]. now apply lower_x. }
      clear E48 Ex. (* decimal *)
      destruct (skip_spec is_digit l eq_refl) as (w & Ew & Fw & Nw).
      destruct (Z.eqb_spec (head0 (skip is_digit l)) 32) as [E32|E32]; [|destruct (Z.eqb_spec (head0 (skip is_digit l)) 0) as [E0|E0]]; cbn [orb].
      * exfalso. apply Hsp. rewrite Ew. apply in_or_app. right.
        destruct (skip is_digit l); [cbn in E32; lia|]. cbn in E32. simpl; auto.
      * assert (Hnil : skip is_digit l = []).
        { destruct (skip is_digit l) as [|y e] eqn:Ee; auto. cbn in E0. subst y. exfalso.
          rewrite Ew, nonul_app, nonul_cons in Hn. tauto. }
        rewrite Hnil, app_nil_r in Ew. rewrite (cstr_cchars s _ R). cbn [ofo rbind].
        eexists. split; [reflexivity|]. split; [intros _|discriminate]. left. split; [discriminate|]. rewrite Ew.
        apply (Forall_impl' _ _ _ (fun c => proj1 (is_digit_spec c)) Fw).
      * exists None. split; auto. split; [congruence|]. intros [[_ F]|[(x' & h' & E & Hx' & _)|(u' & x' & E & Hx' & _ & F)]].
        -- exfalso. apply E0. rewrite skip_all; auto. apply (Forall_impl' _ _ _ (fun c => proj2 (is_digit_spec c)) F).
        -- exfalso. eapply Hnox; eauto.
        -- exfalso. eapply Hnob; eauto.
    + assert (Hnox : forall x h, l = 48 :: x :: h -> False).
      { intros x h E. apply E48. rewrite E. reflexivity. }
      destruct (skip_spec is_digit l eq_refl) as (w & Ew & Fw & Nw).
      destruct (Z.eqb_spec (head0 (skip is_digit l)) 32) as [E32|E32]; [|destruct (Z.eqb_spec (head0 (skip is_digit l)) 0) as [E0|E0]]; cbn [orb].
      * exfalso. apply Hsp. rewrite Ew. apply in_or_app. right.
        destruct (skip is_digit l); [cbn in E32; lia|]. cbn in E32. simpl; auto.
      * assert (Hnil : skip is_digit l = []).
        { destruct (skip is_digit l) as [|y e] eqn:Ee; auto. cbn in E0. subst y. exfalso.
          rewrite Ew, nonul_app, nonul_cons in Hn. tauto. }
        rewrite Hnil, app_nil_r in Ew. rewrite (cstr_cchars s _ R). cbn [ofo rbind].
        eexists. split; [reflexivity|]. split; [intros _|discriminate]. left. split; [discriminate|]. rewrite Ew.
        apply (Forall_impl' _ _ _ (fun c => proj1 (is_digit_spec c)) Fw).
      * exists None. split; auto. split; [congruence|]. intros [[_ F]|[(x' & h' & E & Hx' & _)|(u' & x' & E & Hx' & _ & F)]].
        -- exfalso. apply E0. rewrite skip_all; auto. apply (Forall_impl' _ _ _ (fun c => proj2 (is_digit_spec c)) F).
        -- exfalso. eapply Hnox; eauto.
        -- exfalso. eapply Hnob; eauto.
Qed.
Print Assumptions C20_accepts_exactly_partial.
Example C20_accepts_case :
  ~ In 32 [49; 50; 55] /\ well_formed [49; 50; 55] /\
  forall u x v, [49; 50; 55] = u ++ x :: v -> Forall bin_digit u -> is_b x -> u <> [] /\ v = [].
Proof.
  split; [simpl; lia|]. split; [left; split; [discriminate|repeat constructor; unfold dec_digit; lia]|].
  intros u x v E _ Hx. unfold is_b in Hx.
  destruct u as [|? u]; [inversion E; subst; lia|]. destruct u as [|? u]; [inversion E; subst; lia|].
  destruct u as [|? u]; [inversion E; subst; lia|]. destruct u; discriminate.
Qed.

(** Outside of these guards malformed text is accepted: anything after a binary prefix and
    'b' (also with no digit at all), and anything after a space. *)
Theorem C20_malformed_binary_accepted_refuted :
  forall s u x v, srep s (u ++ x :: v) -> Forall bin_digit u -> is_b x -> exists n, z_parse s = Ok (Some n).
Proof.
  intros s u x v R Fu Hx. unfold z_parse. rewrite (is_integer_ok s _ R). cbn [rbind].
  assert (Ec : classify (u ++ x :: v) = IBinary).
  { unfold classify. rewrite skip_app.
    - cbn [skip]. destruct (bin_char x) eqn:Ex; [apply bin_char_spec in Ex; unfold is_b, bin_digit in *; lia|].
      cbn [head0]. apply lower_b in Hx. rewrite Hx. reflexivity.
    - apply (Forall_impl' _ _ _ (fun c => proj2 (bin_char_spec c)) Fu). }
  assert (Em : match u ++ x :: v with [] => IInvalid | _ :: _ => classify (u ++ x :: v) end = IBinary).
  { destruct (u ++ x :: v) eqn:E; auto. destruct u; discriminate. }
  rewrite Em. rewrite (sr_count _ _ R).
  destruct (exists_last (l := u ++ x :: v)) as (a & y & Ea); [destruct u; discriminate|].
  rewrite Ea in R |- *. rewrite zlen_app. change (zlen [y]) with 1. replace (zlen a + 1 - 1) with (zlen a) by lia.
  destruct (getSub_ok s [] a [y] R) as (r & Er & Rr & _). change (zlen (@nil Z)) with 0 in Er. rewrite Er. cbn [rbind].
  rewrite (cstr_cchars r _ Rr). cbn [ofo rbind]. eauto.
Qed.
Print Assumptions C20_malformed_binary_accepted_refuted.
Theorem C20_text_after_space_accepted_refuted :
  forall s l v w, srep s (l ++ 32 :: w) -> l <> [] -> writes 10 l v -> v < 9223372036854775808 ->
  z_parse s = Ok (Some v).
Proof.
  intros s l v w R Hne W Hv. unfold z_parse. rewrite (is_integer_ok s _ R). cbn [rbind].
  pose proof (Forall_impl' _ _ _ dec_char (writes_chars _ _ _ W)) as F.
  assert (Ec : classify (l ++ 32 :: w) = IInt).
  { unfold classify. destruct (skip_bin_dec l (32 :: w) F) as [H|[_ H]]; [cbn; lia| |].
    - rewrite H. destruct l as [|c l]; [congruence|]. cbn [app head0 tl].
      assert (Hx : (lower (head0 (l ++ 32 :: w)) =? 120) = false).
      { inversion F; subst. destruct l as [|d l]; [reflexivity|]. cbn [app head0]. inversion H3; subst.
        apply digits_nonneg in H4. unfold lower. destruct (Z.leb_spec 65 d); [lia|]. cbn [andb].
        destruct (Z.eqb_spec d 120); [lia|reflexivity]. }
      rewrite Hx, andb_false_r. change (c :: l ++ 32 :: w) with ((c :: l) ++ 32 :: w). rewrite skip_app by auto. reflexivity.
    - rewrite H. cbn [skip]. change (bin_char 32) with false. cbn [head0]. change (lower 32 =? 98) with false. cbn [Z.eqb].
      destruct l as [|c l]; [congruence|]. cbn [app head0 tl].
      assert (Hx : (lower (head0 (l ++ 32 :: w)) =? 120) = false).
      { inversion F; subst. destruct l as [|d l]; [reflexivity|]. cbn [app head0]. inversion H3; subst.
        apply digits_nonneg in H4. unfold lower. destruct (Z.leb_spec 65 d); [lia|]. cbn [andb].
        destruct (Z.eqb_spec d 120); [lia|reflexivity]. }
      rewrite Hx, andb_false_r. change (c :: l ++ 32 :: w) with ((c :: l) ++ 32 :: w). rewrite skip_app by auto. reflexivity. }
  assert (Em : match l ++ 32 :: w with [] => IInvalid | _ :: _ => classify (l ++ 32 :: w) end = IInt).
  { destruct (l ++ 32 :: w) eqn:E; auto. destruct l; discriminate. }
  rewrite Em, (cstr_cchars s _ R). cbn [ofo rbind]. do 2 f_equal.
  assert (Hh : head0 (l ++ 32 :: w) = head0 l) by (destruct l; [congruence|reflexivity]).
  assert (Hd : is_digit (head0 l) = true) by (destruct l; [congruence|inversion F; auto]).
  rewrite strtoll_digits; rewrite ?Hh; auto; try lia.
  - rewrite (digits_val_app 10 l v W). cbn [digits_val]. change (digit_val 32 <? 10) with false.
    pose proof (writes_nonneg 10 _ _ ltac:(lia) W). unfold LLMIN, LLMAX. lia.
  - apply digits_nonneg in Hd. destruct (Z.eqb_spec (head0 l) 0); auto. lia.
Qed.
Print Assumptions C20_text_after_space_accepted_refuted.
Example C20_refuted_cases :
  (do s <- s_lit [98]; z_parse s) = Ok (Some 0) /\ (do s <- s_lit [49; 98; 122]; z_parse s) = Ok (Some 1) /\
  (do s <- s_lit [49; 50; 32; 120]; z_parse s) = Ok (Some 12).
Proof. repeat split; vm_compute; reflexivity. Qed.
