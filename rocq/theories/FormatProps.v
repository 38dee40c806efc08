(** * Theorems about String::format. *)
From Coq Require Import List ZArith Bool Lia.
From Verif Require Import Base StringModel StringSpec StringProofs StringProps IntegerModel IntegerSpec IntegerProofs IntegerProps
  JsonRound FormatModel FormatSpec FormatProofs.
Import ListNotations.
Open Scope Z_scope.

Lemma format_start s l args : srep s l -> ~ In 92 l -> exists u, srep u l /\
  zs_format s (Some args) = do out <- fmt_loop (S (length l)) u 0 l args s_new; s_unescape out.
Proof.
  intros R N. destruct (unescape_ok s l R) as (u & E & Ru). rewrite unesc_plain in Ru by (auto; lia).
  exists u. split; [exact Ru|]. unfold zs_format. rewrite E. cbn [rbind]. now rewrite (cstr_cchars u l Ru).
Qed.
Lemma unescape_plain s l : srep s l -> ~ In 92 l -> exists r, s_unescape s = Ok r /\ srep r l.
Proof.
  intros R N. destruct (unescape_ok s l R) as (r & E & Rr). rewrite unesc_plain in Rr by (auto; lia). eauto.
Qed.

(** C64. A format text made of texts without opening brace, placeholders {i}, {i,n}, {i:f} and
    {i,n:f}, and an end without complete braces: every placeholder is replaced by the text of
    argument i (an integer under d<k> with zeros in front), moved to the right in a field of n
    characters; a placeholder without argument and all other text stay.  Missing: backslashes in
    the text and in the results, and the texts of the refutations below. *)
Theorem C64_format_partial : forall args s ps rs tail,
  srep s (concat (List.map ptext ps) ++ tail) -> Forall2 (puts args) ps rs -> no_place tail ->
  ~ In 92 (concat (List.map ptext ps) ++ tail) -> ~ In 92 (concat rs ++ tail) ->
  exists r, zs_format s (Some args) = Ok r /\ shows r (concat rs ++ tail).
Proof.
  intros args s ps rs tail R F T N1 N2. destruct (format_start s _ args R N1) as (u & Ru & ->).
  destruct (loop_ok args u ps rs F [] tail [] s_new [] (S (length (concat (List.map ptext ps) ++ tail)))) as (out & E & Ro); auto.
  - apply srep_new.
  - change (zlen (@nil Z)) with 0 in E. cbn [app] in *. rewrite E. cbn [rbind].
    destruct (unescape_plain out _ Ro N2) as (r & Er & Rr). exists r. split; [exact Er|]. now apply rep_shows.
Qed.
Print Assumptions C64_format_partial.
(** "a{1,5}-{0:d3}{7}" with the arguments 4 and "xy" gives "a   xy-004{7}" *)
Definition C64_pieces : list piece :=
  [PText [97]; PArg [49] (Some [53]) None; PText [45]; PArg [48] None (Some [100; 51]); PArg [55] None None].
Example C64_case :
  concat (List.map ptext C64_pieces) ++ [33] = [97; 123; 49; 44; 53; 125; 45; 123; 48; 58; 100; 51; 125; 123; 55; 125; 33] /\
  Forall2 (puts [FInt 4; FText [120; 121]]) C64_pieces
    [[97]; [32; 32; 32; 120; 121]; [45]; [48; 48; 52]; [123; 55; 125]] /\ no_place [33].
Proof.
  assert (W : forall d, 0 <= d <= 9 -> writes 10 [48 + d] d).
  { intros d Hd. replace d with (0 * 10 + d) at 2 by lia. apply (w_snoc 10 [] 0 (48 + d) d); [constructor|left; lia|lia]. }
  assert (Nm : forall d, 0 <= d <= 9 -> number [48 + d] d).
  { intros d Hd. split; [discriminate|]. split; [now apply W|lia]. }
  split; [reflexivity|]. split.
  - constructor; [constructor; cbn; lia|]. constructor; [|constructor; [constructor; cbn; lia|]].
    + apply (pu_pad _ [48 + 1] 1 [48 + 5] 5 None (FText [120; 121]) [120; 121]); auto; try (apply Nm; lia); try (cbn; tauto).
      * constructor. repeat constructor; lia.
      * exists [32; 32; 32]. repeat split; auto.
    + constructor; [|constructor; [|constructor]].
      * apply (pu_arg _ [48 + 0] 0 (Some [100; 51]) (FInt 4)); auto; try (apply Nm; lia); try (cbn; lia).
        cbn [lead tl]. apply (sh_pad 4 [48 + 3] 3 [52] [48; 48]); try lia; try discriminate.
        -- apply W. lia.
        -- reflexivity.
        -- split; [discriminate|]. split; [apply (W 4); lia|right; cbn; lia].
        -- reflexivity.
        -- repeat constructor.
      * apply (pu_out _ [48 + 7] 7 None None); try (apply Nm; lia); cbn; try lia; tauto.
  - intros a b E. destruct a as [|x [|y a]]; discriminate.
Qed.

(** Without arguments the text stays as it is. *)
Theorem C64_no_arguments_partial : forall s l, srep s l -> ~ In 92 l ->
  exists r, zs_format s None = Ok r /\ shows r l.
Proof.
  intros s l R N. unfold zs_format. destruct (unescape_plain s l R N) as (u & -> & Ru). cbn [rbind].
  destruct (s_copy_ok u l Ru) as (c & -> & Rc & _). cbn [rbind].
  destruct (unescape_plain c l Rc N) as (r & -> & Rr). exists r. split; [reflexivity|now apply rep_shows].
Qed.
Print Assumptions C64_no_arguments_partial.

(** ** Where C64 fails *)

(** One pair of braces in front. *)
Lemma one_place args s c d : srep s (123 :: c ++ 125 :: d) -> ~ In 92 (123 :: c ++ 125 :: d) -> ~ In 125 c ->
  exists u e, srep u (123 :: c ++ 125 :: d) /\ srep e [] /\
  zs_format s (Some args) = do out <- (do acc <- placeholder u 0 c args e; fmt_loop (length (123 :: c ++ 125 :: d)) u (zlen c + 2) d args acc); s_unescape out.
Proof.
  intros R N H. destruct (format_start s _ args R N) as (u & Ru & ->).
  destruct (getSub_ok u [] [] _ Ru) as (t & Et & Rt & Bt). change (zlen (@nil Z)) with 0 in Et.
  destruct (append_ok s_new [] t [] srep_new Rt Bt) as (e & Ee & Re).
  exists u, e. split; [exact Ru|]. split; [exact Re|].
  cbn [fmt_loop strchr]. change (123 =? 123) with true. cbn match. rewrite (strchr_at 125 c d H).
  change (zlen (@nil Z)) with 0. rewrite Et. cbn [rbind]. rewrite Ee. cbn [rbind]. reflexivity.
Qed.
Lemma place_end u c d acc m args f : srep u (123 :: c ++ 125 :: d) -> srep acc m -> no_place d -> (length d < f)%nat ->
  ~ In 92 (m ++ d) ->
  exists r, (do out <- fmt_loop f u (zlen c + 2) d args acc; s_unescape out) = Ok r /\ shows r (m ++ d).
Proof.
  intros R Ra Hd Hf N.
  replace (123 :: c ++ 125 :: d) with ((123 :: c ++ [125]) ++ [] ++ concat (List.map ptext []) ++ d) in R
    by (cbn [List.map concat app]; rewrite <- app_assoc; reflexivity).
  destruct (loop_ok args u [] [] (Forall2_nil _) [] d _ acc m f (fun x => x) Hd R Ra) as (out & E & Ro); [cbn [List.map concat app]; lia|].
  cbn [List.map concat app] in *.
  replace (zlen (123 :: c ++ [125])) with (zlen c + 2) in E by (change (123 :: c ++ [125]) with ([123] ++ c ++ [125]); rewrite !zlen_app; change (zlen [123]) with 1; change (zlen [125]) with 1; lia).
  rewrite E. cbn [rbind]. destruct (unescape_plain out _ Ro N) as (r & Er & Rr). exists r. split; [exact Er|now apply rep_shows].
Qed.

(** C64 fails: a placeholder whose format contains a comma disappears. *)
Theorem C64_comma_in_format_refuted : forall args s idx f g d,
  srep s (123 :: (idx ++ 58 :: f ++ 44 :: g) ++ 125 :: d) -> ~ In 92 (123 :: (idx ++ 58 :: f ++ 44 :: g) ++ 125 :: d) ->
  ~ In 44 idx -> ~ In 58 idx -> ~ In 44 f -> ~ In 125 (idx ++ 58 :: f ++ 44 :: g) -> no_place d ->
  exists r, zs_format s (Some args) = Ok r /\ shows r d.
Proof.
  intros args s idx f g d R N H1 H2 H3 H4 Hd. destruct (one_place args s _ d R N H4) as (u & e & Ru & Re & ->).
  unfold placeholder.
  assert (cut (idx ++ 58 :: f ++ 44 :: g) = None) as ->.
  { unfold cut. rewrite (strchr_at 58 idx _ H2).
    replace (idx ++ 58 :: f ++ 44 :: g) with ((idx ++ 58 :: f) ++ 44 :: g) by (rewrite <- app_assoc; reflexivity).
    rewrite strchr_at.
    - rewrite app_length. cbn [length]. destruct (Nat.ltb_spec (length idx + S (length f)) (length idx)); [lia|reflexivity].
    - intros H. apply in_app_or in H as [H|[H|H]]; [auto|lia|auto]. }
  cbn [rbind]. apply (place_end u _ d e [] args); auto.
  - cbn [length]. rewrite app_length. cbn [length]. lia.
  - cbn [app]. intros K. apply N. right. apply in_or_app. right. now right.
Qed.
Print Assumptions C64_comma_in_format_refuted.
Example C64_comma_in_format_case : exists s, srep s (123 :: ([48] ++ 58 :: [97] ++ 44 :: [98]) ++ 125 :: [33]) /\ no_place [33].
Proof.
  destruct (s_lit_ok [123; 48; 58; 97; 44; 98; 125; 33]) as (s & _ & R & _).
  { repeat (apply nonul_cons; split; [lia|]). apply nonul_nil. }
  exists s. split; [exact R|]. intros a b E. destruct a as [|x [|y a]]; discriminate.
Qed.

(** What Integer::parse does not take for an integer. *)
Definition not_number (c : list Z) : Prop :=
  c = [] \/ (~ (48 <= hd 0 c <= 57) /\ hd 0 c <> 98 /\ hd 0 c <> 66 /\ hd 0 c <> 32 /\ hd 0 c <> 0).
Lemma not_number_parse c s : not_number c -> srep s c -> z_parse s = Ok None.
Proof.
  intros H R. unfold z_parse. rewrite (is_integer_ok s c R). cbn [rbind]. destruct c as [|x c]; [reflexivity|].
  destruct H as [H|(H1 & H2 & H3 & H4 & H5)]; [discriminate|]. cbn [hd] in *.
  assert (Ed : is_digit x = false).
  { unfold is_digit. destruct (Z.leb_spec 48 x), (Z.leb_spec x 57); try reflexivity. lia. }
  assert (classify (x :: c) = IInvalid) as ->; [|reflexivity].
  unfold classify. cbn [skip]. unfold bin_char at 1. rewrite Ed. cbn [andb head0].
  destruct (Z.eqb_spec (lower x) 98) as [E|_]; [apply lower_b in E; unfold is_b in E; lia|].
  unfold is_digit in Ed. destruct (Z.eqb_spec x 48) as [->|_]; [discriminate|]. cbn [andb].
  destruct (Z.eqb_spec x 32); [lia|]. destruct (Z.eqb_spec x 0); [lia|]. reflexivity.
Qed.
Lemma cut_plain c : ~ In 44 c -> ~ In 58 c -> cut c = Some (c, None, None).
Proof. intros H1 H2. unfold cut. apply strchr_none in H1, H2. now rewrite H1, H2. Qed.

(** C64 fails: braces around any other text are an error, ... *)
Theorem C64_other_braces_refuted : forall args s c d,
  srep s (123 :: c ++ 125 :: d) -> ~ In 92 (123 :: c ++ 125 :: d) -> not_number c ->
  ~ In 44 c -> ~ In 58 c -> ~ In 125 c -> zlen c < 450 -> zs_format s (Some args) = Thr.
Proof.
  intros args s c d R N Hc H1 H2 H3 Hl. destruct (one_place args s c d R N H3) as (u & e & Ru & Re & ->).
  unfold placeholder. rewrite (cut_plain c H1 H2).
  assert (Nc : nonul c). { pose proof (sr_nonul _ _ R) as K. apply nonul_cons in K as [_ K]. apply nonul_app in K. tauto. }
  destruct (of_chars_ok c Nc) as (n & -> & Rn). cbn [rbind]. rewrite (not_number_parse c n Hc Rn). cbn [rbind].
  unfold ERRBUF. destruct (Z.leb_spec 450 (zlen c)); [lia|reflexivity].
Qed.
Print Assumptions C64_other_braces_refuted.
Example C64_other_braces_case : exists s, srep s (123 :: [97] ++ 125 :: []) /\ not_number [97].
Proof.
  destruct (s_lit_ok [123; 97; 125]) as (s & _ & R & _).
  { repeat (apply nonul_cons; split; [lia|]). apply nonul_nil. }
  exists s. split; [exact R|]. right. cbn. lia.
Qed.
(** ... and from 450 bytes on the message is written over the end of a buffer. *)
Theorem C64_long_braces_refuted : forall args s c d,
  srep s (123 :: c ++ 125 :: d) -> ~ In 92 (123 :: c ++ 125 :: d) -> not_number c ->
  ~ In 44 c -> ~ In 58 c -> ~ In 125 c -> 450 <= zlen c -> zs_format s (Some args) = UB.
Proof.
  intros args s c d R N Hc H1 H2 H3 Hl. destruct (one_place args s c d R N H3) as (u & e & Ru & Re & ->).
  unfold placeholder. rewrite (cut_plain c H1 H2).
  assert (Nc : nonul c). { pose proof (sr_nonul _ _ R) as K. apply nonul_cons in K as [_ K]. apply nonul_app in K. tauto. }
  destruct (of_chars_ok c Nc) as (n & -> & Rn). cbn [rbind]. rewrite (not_number_parse c n Hc Rn). cbn [rbind].
  unfold ERRBUF. destruct (Z.leb_spec 450 (zlen c)); [reflexivity|lia].
Qed.
Print Assumptions C64_long_braces_refuted.
Example C64_long_braces_case : exists s n, srep s (123 :: repeat 97 n ++ 125 :: []) /\ not_number (repeat 97 n) /\ 450 <= zlen (repeat 97 n).
Proof.
  destruct (s_lit_ok (123 :: repeat 97 (Z.to_nat 450) ++ 125 :: [])) as (s & _ & R & _).
  { apply Forall_forall. intros x [H|H]; [lia|]. apply in_app_or in H as [H|[H|[]]]; [apply repeat_spec in H|]; lia. }
  exists s, (Z.to_nat 450). split; [exact R|]. split; [|unfold zlen; rewrite repeat_length; lia].
  right. replace (Z.to_nat 450) with (S (Z.to_nat 449)) by lia. cbn [repeat hd]. lia.
Qed.

(** C64 fails: an index of 2^32 or more is cut to 32 bits and picks another argument. *)
Theorem C64_wrapped_index_refuted : forall args s idx v k a t d,
  srep s (123 :: idx ++ 125 :: d) -> ~ In 92 (123 :: idx ++ 125 :: d) -> idx <> [] -> writes 10 idx v ->
  4294967296 <= v < 9223372036854775808 -> v mod 4294967296 = k -> k < 2147483648 ->
  nth_error args (Z.to_nat k) = Some a -> shown a [] t -> ~ In 92 t -> no_place d ->
  exists r, zs_format s (Some args) = Ok r /\ shows r (t ++ d).
Proof.
  intros args s idx v k a t d R N Hi W Hv Hk Hk2 Ha Hs Ht Hd.
  assert (Fi : Forall (fun c => 48 <= c <= 57) idx).
  { clear - W. induction W as [|l v c d W IH D Hd]; [constructor|]. apply Forall_app. split; [exact IH|].
    constructor; [|constructor]. destruct D as [D|D]; lia. }
  destruct (one_place args s idx d R N) as (u & e & Ru & Re & ->). { apply digits_not_in; [exact Fi|lia]. }
  unfold placeholder. rewrite (cut_plain idx) by (apply digits_not_in; [exact Fi|lia]).
  destruct (of_chars_ok idx (digits_nonul _ Fi)) as (n & -> & Rn). cbn [rbind].
  rewrite (C20_decimal_value n idx v Rn Hi W) by lia. cbn [rbind].
  assert (to_int v = k) as ->.
  { unfold to_int. rewrite <- Hk in *. rewrite <- Zplus_mod_idemp_l. rewrite (Z.mod_small (v mod 4294967296 + _)); [lia|].
    pose proof (Z.mod_pos_bound v 4294967296). lia. }
  assert (0 <= k) by (subst k; apply Z.mod_pos_bound; lia).
  assert (Z.to_nat k < length args)%nat by (apply nth_error_Some; congruence).
  destruct (Z.leb_spec 0 k); [|lia]. destruct (Z.ltb_spec k (Z.of_nat (length args))); [|lia]. cbn [andb].
  rewrite Ha. destruct (shown_ok _ _ _ Hs) as (rt & -> & Rt & Bt). cbn [rbind Z.ltb Z.compare].
  destruct (append_ok e [] rt t Re Rt Bt) as (acc & -> & Racc). cbn [rbind].
  apply (place_end u idx d acc t args); auto.
  - cbn [length]. rewrite app_length. cbn [length]. lia.
  - intros K. apply in_app_or in K as [K|K]; [auto|]. apply N. right. apply in_or_app. right. now right.
Qed.
Print Assumptions C64_wrapped_index_refuted.

(** An index that is cut to a negative number has no argument: the placeholder stays. *)
Theorem C64_negative_index_stays : forall args s idx v d,
  srep s (123 :: idx ++ 125 :: d) -> ~ In 92 (123 :: idx ++ 125 :: d) -> idx <> [] -> writes 10 idx v ->
  v < 9223372036854775808 -> 2147483648 <= v mod 4294967296 -> no_place d ->
  exists r, zs_format s (Some args) = Ok r /\ shows r (123 :: idx ++ 125 :: d).
Proof.
  intros args s idx v d R N Hi W Hv Hk Hd.
  assert (Fi : Forall (fun c => 48 <= c <= 57) idx).
  { clear - W. induction W as [|l v c d W IH D Hd]; [constructor|]. apply Forall_app. split; [exact IH|].
    constructor; [|constructor]. destruct D as [D|D]; lia. }
  destruct (one_place args s idx d R N) as (u & e & Ru & Re & ->). { apply digits_not_in; [exact Fi|lia]. }
  unfold placeholder. rewrite (cut_plain idx) by (apply digits_not_in; [exact Fi|lia]).
  destruct (of_chars_ok idx (digits_nonul _ Fi)) as (n & -> & Rn). cbn [rbind].
  rewrite (C20_decimal_value n idx v Rn Hi W) by lia. cbn [rbind].
  assert (to_int v < 0) as Hneg.
  { unfold to_int. rewrite <- Zplus_mod_idemp_l. pose proof (Z.mod_pos_bound v 4294967296 eq_refl) as B.
    replace (v mod 4294967296 + 2147483648) with ((v mod 4294967296 - 2147483648) + 1 * 4294967296) by lia.
    rewrite Z.mod_add by lia. rewrite Z.mod_small by lia. lia. }
  destruct (Z.leb_spec 0 (to_int v)); [lia|]. cbn [andb].
  replace (123 :: idx ++ 125 :: d) with ([] ++ (123 :: idx ++ [125]) ++ d) in Ru by (cbn [app]; rewrite <- app_assoc; reflexivity).
  destruct (getSub_ok u [] (123 :: idx ++ [125]) d Ru) as (t & Et & Rt & Bt). change (zlen (@nil Z)) with 0 in Et.
  replace (zlen (123 :: idx ++ [125])) with (zlen idx + 2) in Et by (change (123 :: idx ++ [125]) with ([123] ++ idx ++ [125]); rewrite !zlen_app; change (zlen [123]) with 1; change (zlen [125]) with 1; lia).
  rewrite Et. cbn [rbind]. destruct (append_ok e [] t _ Re Rt Bt) as (acc & -> & Racc). cbn [rbind].
  cbn [app] in Ru, Racc. rewrite <- app_assoc in Ru. cbn [app] in Ru.
  replace (123 :: idx ++ 125 :: d) with ((123 :: idx ++ [125]) ++ d) by (cbn [app]; rewrite <- app_assoc; reflexivity).
  apply (place_end u idx d acc (123 :: idx ++ [125]) args); auto.
  - cbn [length app]. rewrite !app_length. cbn [length]. lia.
  - cbn [app]. rewrite <- app_assoc. exact N.
Qed.
Print Assumptions C64_negative_index_stays.
(** {2147483648} *)
Example C64_negative_index_case : exists s, srep s (123 :: [50; 49; 52; 55; 52; 56; 51; 54; 52; 56] ++ 125 :: []) /\
  writes 10 [50; 49; 52; 55; 52; 56; 51; 54; 52; 56] 2147483648 /\ 2147483648 <= 2147483648 mod 4294967296.
Proof.
  destruct (s_lit_ok [123; 50; 49; 52; 55; 52; 56; 51; 54; 52; 56; 125]) as (s & _ & R & _).
  { repeat (apply nonul_cons; split; [lia|]). apply nonul_nil. }
  exists s. split; [exact R|]. split; [|reflexivity].
  assert (D : forall l v d, 0 <= d <= 9 -> writes 10 l v -> writes 10 (l ++ [48 + d]) (v * 10 + d)).
  { intros l v d Hd H. apply (w_snoc 10 l v (48 + d) d); [exact H|left; lia|lia]. }
  pose proof (w_nil 10) as H.
  apply (D _ _ 2) in H; [|lia]. apply (D _ _ 1) in H; [|lia]. apply (D _ _ 4) in H; [|lia]. apply (D _ _ 7) in H; [|lia].
  apply (D _ _ 4) in H; [|lia]. apply (D _ _ 8) in H; [|lia]. apply (D _ _ 3) in H; [|lia]. apply (D _ _ 6) in H; [|lia].
  apply (D _ _ 4) in H; [|lia]. apply (D _ _ 8) in H; [|lia]. exact H.
Qed.

(** C64 fails: a backslash in an argument is taken for an escape. *)
Theorem C64_argument_escape_refuted : forall s b c, srep s [123; 48; 125] ->
  Forall (fun x => x <> 0 /\ x <> 92) b -> Forall (fun x => x <> 0 /\ x <> 92) c ->
  exists r, zs_format s (Some [FText (b ++ 92 :: 110 :: c)]) = Ok r /\ shows r (b ++ 10 :: c).
Proof.
  intros s b c R Fb Fc. destruct (format_start s _ [FText (b ++ 92 :: 110 :: c)] R) as (u & Ru & ->); [cbn; lia|].
  assert (N : nonul (b ++ 92 :: 110 :: c)).
  { apply nonul_app. split; [|apply nonul_cons; split; [lia|apply nonul_cons; split; [lia|]]];
      (eapply Forall_impl; [|eassumption]; cbn; tauto). }
  assert (W : writes 10 [48] 0) by (apply (w_snoc 10 [] 0 48 0); [constructor|left; lia|lia]).
  assert (P : Forall2 (puts [FText (b ++ 92 :: 110 :: c)]) [PArg [48] None None] [b ++ 92 :: 110 :: c]).
  { constructor; [|constructor]. apply (pu_arg _ [48] 0 None (FText (b ++ 92 :: 110 :: c))); try reflexivity; try (cbn; tauto).
    - split; [discriminate|]. split; [exact W|lia].
    - constructor. exact N. }
  destruct (loop_ok _ u _ _ P [] [] [] s_new [] 4%nat) as (out & E & Ro); auto.
  - intros x y H. destruct x; discriminate.
  - apply srep_new.
  - change (zlen (@nil Z)) with 0 in E. cbn [app concat List.map ptext lead] in E, Ro. rewrite !app_nil_r in Ro.
    change (S (length [123; 48; 125])) with 4%nat. rewrite E. cbn [rbind].
    destruct (unescape_ok out _ Ro) as (r & -> & Rr). exists r. split; [reflexivity|]. apply rep_shows.
    assert (forall l, Forall (fun x => x <> 0 /\ x <> 92) l -> ~ In 92 l).
    { intros l F K. rewrite Forall_forall in F. destruct (F _ K). congruence. }
    replace (b ++ 10 :: c) with (unesc (S (length (b ++ 92 :: 110 :: c))) (b ++ 92 :: 110 :: c)); [exact Rr|].
    replace (S (length (b ++ 92 :: 110 :: c))) with (length b + S (S (S (length c))))%nat by (rewrite app_length; cbn [length]; lia).
    revert H Fb Fc. clear. intros H Fb Fc.
    assert (K : forall f r, r <> [] -> unesc (length b + f) (b ++ r) = b ++ unesc f r).
    { intros f r Hr. pose proof (H b Fb) as Nb. clear - Hr Nb. induction b as [|x b IH]; [reflexivity|]. cbn [length Nat.add app unesc].
      destruct (b ++ r) as [|e q] eqn:E; [apply app_eq_nil in E as [_ E]; congruence|].
      destruct (Z.eqb_spec x 92) as [->|]; [destruct Nb; now left|]. f_equal. apply IH. intros K. apply Nb. now right. }
    rewrite K by discriminate. f_equal. cbn [unesc]. change (92 =? 92) with true. change (110 =? 92) with false.
    change (110 =? 110) with true. cbn match. cbn [app]. f_equal. apply (unesc_plain c (S (S (length c)))); auto.
Qed.
Print Assumptions C64_argument_escape_refuted.
Example C64_argument_escape_case : exists s, srep s [123; 48; 125].
Proof.
  destruct (s_lit_ok [123; 48; 125]) as (s & _ & R & _); eauto.
  repeat (apply nonul_cons; split; [lia|]). apply nonul_nil.
Qed.
